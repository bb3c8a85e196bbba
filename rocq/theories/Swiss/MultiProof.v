(** Proofs about [Multi]. *)
From stdpp Require Import list.
From Coq Require Import Arith NArith ZArith Lia.
From Coq Require Import ZifyBool ZifyNat ZifyN.
From Verif.Common Require Import Res Word WordFacts.
From Verif.Swiss Require Import Group GroupSpec Model Probe Inv TableInv Resize Ops MapSpec History Reserve Multi MultiSpec.
Ltac Zify.zify_post_hook ::= Z.div_mod_to_equations.
Local Open Scope nat_scope.
Local Open Scope res_scope.
Local Arguments cnt : simpl never.
Local Arguments elems : simpl never.

(** operator== of the element type: an equivalence that implies key equality. *)
Record EltOK {K V} (eqb : K -> K -> bool) (eeq : K * V -> K * V -> bool) : Prop := {
  eo_refl : forall a, eeq a a = true;
  eo_sym : forall a b, eeq a b = eeq b a;
  eo_trans : forall a b c, eeq a b = true -> eeq b c = true -> eeq a c = true;
  eo_key : forall a b, eeq a b = true -> eqb (fst a) (fst b) = true
}.

Section MultiProof.
Context {K V : Type} (hash : K -> N) (eqb : K -> K -> bool) (E : env).
Context (HE : env_ok E) (HK : KeyOK hash eqb).
Set Default Proof Using "HE HK".
Notation W := (g_width (e_group E)).
Notation g := (e_group E).
Notation elt := (K * V)%type.
Notation table := (table K V).
Notation good := (good hash eqb E).
Notation tinv := (tinv hash eqb E).
Notation tinv0 := (tinv0 hash eqb E).
Notation HG := (eo_group E HE).

(** ** copy *)
Lemma copy_loop_ok (l : list elt) : forall t : table, tinv0 t -> ndel (t_ctrl t) (t_cap t) = 0 ->
  distinct eqb (elems (t_slots t) ++ l) -> length (elems (t_slots t)) + length l <= t_cap t ->
  exists t', copy_loop hash E l t = Ok t' /\ tinv0 t' /\ ndel (t_ctrl t') (t_cap t') = 0 /\
    t_size t' = t_size t /\ t_cap t' = t_cap t /\ t_growth t' = t_growth t /\
    elems (t_slots t') ≡ₚ elems (t_slots t) ++ l.
Proof.
  induction l as [|e l IH]; intros t Ht Hnd Hdist Hroom; cbn [copy_loop].
  - exists t. split; [reflexivity|]. split; [assumption|]. split; [assumption|]. repeat split. rewrite app_nil_r. reflexivity.
  - cbn [length] in Hroom.
    destruct (ffnf_reach hash eqb E HG HK t (hash (fst e)) Ht ltac:(lia)) as (p & Hp & Hpc & Hpn & Hpr).
    rewrite Hp. cbn [rbind].
    destruct (set_ctrl_ok E HG (t_ctrl t) (t_cap t) p (H2 (hash (fst e))) (ti_wfc _ _ _ _ Ht) Hpc (H2_sb _)) as (ctrl' & Hset & Hwf' & Hcp & Hoth & _).
    rewrite Hset. cbn [rbind].
    destruct Hpn as (cp & Hcp0 & Hneg).
    rewrite (construct_ok _ _ _ (slot_none hash eqb E HG HK t p cp Ht Hpc Hcp0 ltac:(lia))). cbn [rbind].
    assert (Hswap : elems (t_slots t) ++ e :: l ≡ₚ (e :: elems (t_slots t)) ++ l) by (symmetry; apply Permutation_middle).
    assert (Habs : absent eqb t (fst e)).
    { pose proof (distinct_perm eqb (ko_sym _ _ HK) _ _ Hswap Hdist) as Hd2. cbn in Hd2. destruct Hd2 as [Hd2 _].
      intros y Hy. apply Hd2. apply in_or_app. auto. }
    destruct e as [k v]. cbn [fst] in *.
    destruct (insert_at hash eqb E HG HK t p k v ctrl' Ht Hpc (ex_intro _ cp (conj Hcp0 Hneg)) Hpr Habs Hwf' Hcp Hoth (t_size t) (t_growth t)) as [Ht' Hperm].
    destruct (IH (mkTable ctrl' (<[p:=Some (k, v)]> (t_slots t)) (t_size t) (t_cap t) (t_growth t))) as (t' & Hr & Ht'' & Hnd' & Hsz & Hcap & Hgr & Hp'); cbn [t_ctrl t_slots t_size t_cap t_growth] in *.
    + assumption.
    + pose proof (ndel_set E _ _ _ _ _ _ (ti_wfc _ _ _ _ Ht) Hwf' Hpc Hcp0 Hcp Hoth) as Hn.
      rewrite isDel_H2 in Hn. lia.
    + eapply (distinct_perm eqb (ko_sym _ _ HK)); [|exact Hdist]. rewrite Hswap, Hperm. reflexivity.
    + rewrite (Permutation_length Hperm). cbn [length]. lia.
    + exists t'. split; [exact Hr|]. split; [assumption|]. split; [assumption|]. split; [assumption|]. split; [assumption|].
      split; [assumption|]. rewrite Hp', Hperm. symmetry. exact Hswap.
Qed.

Lemma normalize_cap c : valid_cap c -> (N.of_nat c < 2 ^ 64)%N -> NormalizeCapacity (N.of_nat c) = N.of_nat c.
Proof using.
  intros Hv Hc. pose proof (normalize_ge _ Hc) as [H1 _]. pose proof (normalize_min _ c Hc Hv ltac:(lia)) as H2. lia.
Qed.

Lemma copy_ok (that : table) : good that ->
  (copy hash E that = BadAlloc /\ (e_max_bytes E < alloc_size E (N.of_nat (t_cap that)))%N) \/
  exists t', copy hash E that = Ok t' /\ good t' /\ t_cap t' = t_cap that /\ t_size t' = t_size that /\
    elems (t_slots t') ≡ₚ elems (t_slots that) /\ ndel (t_ctrl t') (t_cap t') = 0.
Proof.
  intros Hg. destruct (iterate_ok hash eqb E HE HK that Hg) as (is & _ & Htl & _ & _).
  unfold copy. pose proof (good_size hash eqb E that Hg) as Hsz.
  destruct Hg as [->|Ht].
  - (* nothing to copy *)
    right. cbn. eexists. split; [reflexivity|]. split; [left; reflexivity|]. repeat split; reflexivity.
  - pose proof (tinv_cap _ _ _ that Ht) as Hv. pose proof (valid_cap_cases _ Hv) as Hcc.
    destruct (size_bound hash eqb E HE that Ht) as [Hsc Hc62].
    pose proof (normalize_cap _ Hv ltac:(lia)) as Hnorm.
    unfold rehash. cbn [t_cap t_size empty_table].
    destruct (N.eqb_spec (N.of_nat (t_cap that)) 0); [lia|]. cbn [andb orb].
    rewrite N.max_l by lia. rewrite Hnorm.
    destruct (N.ltb_spec (N.of_nat 0) (N.of_nat (t_cap that))); [|lia].
    pose proof (fits_no_wrap hash eqb E HE that (N.of_nat (t_cap that)) Ht ltac:(lia)) as Hnw.
    destruct (resize_tinv hash eqb E HE HK (empty_table : table) (N.of_nat (t_cap that))) as [[Hb Hbig]|(t0 & Hr & Ht0 & Hnd0 & Hsz0 & Hcap0 & Hel0)].
    + left. reflexivity.
    + rewrite Nat2N.id. assumption.
    + assumption.
    + cbn [t_size empty_table]. lia.
    + rewrite Hb. cbn [rbind]. left. auto.
    + rewrite Hr, Htl. cbn [rbind]. right.
      rewrite Nat2N.id in Hcap0. apply Permutation_length in Hel0 as Hl0. cbn in Hl0.
      assert (Hel0' : elems (t_slots t0) = []) by (apply nil_length_inv; exact Hl0).
      destruct (copy_loop_ok (elems (t_slots that)) t0) as (t1 & Hcl & Ht1 & Hnd1 & Hsz1 & Hcap1 & Hgr1 & Hel1).
      * apply (tv_0 _ _ _ _ Ht0).
      * assumption.
      * rewrite Hel0'. cbn. apply (good_dist hash eqb E that). right. assumption.
      * rewrite Hel0', Hcap0. cbn. lia.
      * rewrite Hcl. cbn [rbind]. eexists. split; [reflexivity|]. cbn [t_ctrl t_slots t_size t_cap t_growth].
        rewrite Hel0' in Hel1. cbn in Hel1.
        destruct (good_room hash eqb E that (or_intror Ht)) as [Hroom _].
        split; [|repeat split; [congruence|exact Hel1|assumption]].
        right. constructor; cbn [t_ctrl t_slots t_size t_cap t_growth].
        -- destruct Ht1 as [H1 H2 H3 H4 H5]. constructor; assumption.
        -- rewrite Hsz. symmetry. apply Permutation_length. assumption.
        -- rewrite Hnd1, Hcap1, Hcap0. lia.
        -- rewrite Hnd1, Hgr1, (tv_growth _ _ _ _ Ht0), Hnd0, Hcap1, Hcap0, Hsz0. cbn [t_size empty_table].
           pose proof (cap_le_growth E (t_cap that)) as Hcg.
           rewrite wsub_small by lia. lia.
        -- intros _. assumption.
        -- rewrite Hcap1, Hcap0. apply (tv_bytes _ _ _ _ Ht).
Qed.

(** ** has_element and operator== *)
Context (eeq : elt -> elt -> bool) (HQ : EltOK eqb eeq).
Lemma has_match_spec (t : table) x o is : tinv0 t -> o <= t_cap t ->
  (forall d, In d is -> d < W /\ exists c, t_ctrl t !! (o + d) = Some c /\ (0 <= c)%Z) ->
  exists b, has_match eeq t x o is = Ok b /\
    (b = true -> exists e, In e (elems (t_slots t)) /\ eeq e x = true) /\
    (b = false -> forall d e, In d is -> t_slots t !! ((o + d) mod S (t_cap t)) = Some (Some e) -> eeq e x = false).
Proof.
  intros Ht Ho. induction is as [|d is IH]; intros Hin; cbn [has_match].
  - exists false. split; [reflexivity|]. split; [discriminate|]. intros _ d e [].
  - destruct (Hin d (or_introl eq_refl)) as (Hd & c & Hc & H0).
    rewrite probe_at_mod by apply (wfc_cap _ _ _ (ti_wfc _ _ _ _ Ht)).
    set (p := (o + d) mod S (t_cap t)).
    assert (Hp : p < S (t_cap t)) by (apply Nat.mod_upper_bound; lia).
    assert (Hcp : t_ctrl t !! p = Some c).
    { destruct (byte_cases E HG _ _ o d (ti_wfc _ _ _ _ Ht) Ho Hd) as [[_ Hb]|(_ & _ & Hb)].
      - fold p in Hb. congruence.
      - rewrite Hb in Hc. injection Hc as <-. unfold kEmpty in H0. lia. }
    assert (Hpc : p < t_cap t).
    { destruct (Nat.eq_dec p (t_cap t)) as [He|]; [|lia]. rewrite He, (wfc_sent _ _ _ (ti_wfc _ _ _ _ Ht)) in Hcp.
      injection Hcp as <-. unfold kSentinel in H0. lia. }
    destruct (slot_full hash eqb E HG HK t p c Ht Hpc Hcp H0) as (e & Hs & _).
    rewrite (load_some _ _ _ Hs). cbn [rbind of_option].
    destruct (eeq e x) eqn:Ek.
    + exists true. split; [reflexivity|]. split; [|discriminate]. intros _. exists e. split; [|assumption]. apply elems_in. eauto.
    + destruct IH as (b & Hb & Ht1 & Hf1); [intros d' Hd'; apply Hin; right; assumption|].
      exists b. split; [exact Hb|]. split; [assumption|]. intros Hbf d' e' [<-|Hd'] He'; [|eauto]. fold p in He'. congruence.
Qed.

Lemma has_loop_ok (t : table) x nstar : tinv0 t ->
  ~ nempty E (t_ctrl t) (t_cap t) (poffh E (t_cap t) (hash (fst x)) nstar) ->
  forall fuel n, n <= nstar -> nstar - n < fuel ->
  (forall n', n' < n -> nempty E (t_ctrl t) (t_cap t) (poffh E (t_cap t) (hash (fst x)) n')) ->
  (forall n' e i, n' < n -> covers E (t_cap t) (poffh E (t_cap t) (hash (fst x)) n') i ->
     t_slots t !! i = Some (Some e) -> eeq e x = false) ->
  exists b, has_loop E eeq fuel t x (hash (fst x)) (poffh E (t_cap t) (hash (fst x)) n) (n * W) = Ok b /\
    (b = true <-> exists e, In e (elems (t_slots t)) /\ eeq e x = true).
Proof using HE HK HQ.
  intros Ht Hns. pose proof (ti_wfc _ _ _ _ Ht) as Hwf.
  induction fuel as [|f IH]; intros n Hn Hf Hne Hprev; [lia|]. cbn [has_loop].
  set (o := poffh E (t_cap t) (hash (fst x)) n) in *. assert (Ho : o <= t_cap t) by apply poffh_le.
  destruct (window_ok E HG _ _ _ Hwf Ho) as (w & Hw & Hl & Hv & Hb). rewrite Hw. cbn [rbind].
  destruct (has_match_spec t x o (g_match g w (H2 (hash (fst x)))) Ht Ho) as (b & Hr & Hbt & Hbf).
  { intros d Hd. destruct (gok_match_sound _ HG w _ d Hl Hv (H2_range _) Hd) as (c & Hc & H0).
    assert (Hdl : d < W) by (apply lookup_lt_Some in Hc; lia). split; [assumption|].
    exists c. rewrite <- Hb by assumption. split; assumption. }
  rewrite Hr. cbn [rbind]. destruct b.
  - exists true. split; [reflexivity|]. split; [auto|reflexivity].
  - assert (Hhere : forall e i, covers E (t_cap t) o i -> t_slots t !! i = Some (Some e) -> eeq e x = false).
    { intros e i Hcov Hs. destruct (eeq e x) eqn:Heq; [|reflexivity]. exfalso.
      destruct (covers_byte E HG _ _ _ _ Hwf Ho Hcov) as (d & Hd & HdM & Hmod & Hdb).
      destruct (slot_ctrl hash eqb E HG HK t i e Ht Hs) as [Hi Hci].
      assert (Hin : In d (g_match g w (H2 (hash (fst x))))).
      { apply (gok_match_complete _ HG); [assumption|assumption|apply H2_range|].
        rewrite Hb by assumption. rewrite Hdb, Hci. f_equal. f_equal.
        apply (ko_hash _ _ HK). apply (eo_key _ _ HQ). assumption. }
      assert (eeq e x = false) by (eapply Hbf; [reflexivity|exact Hin|rewrite Hmod; exact Hs]). congruence. }
    destruct (g_any_empty g w) eqn:Hae.
    + exists false. split; [reflexivity|]. split; [discriminate|]. intros (e & Hin & Heq). exfalso.
      apply elems_in in Hin. destruct Hin as [i Hs].
      destruct (ti_reach _ _ _ _ Ht i e Hs) as (n0 & Hn0 & Hcov & Hne0).
      rewrite (ko_hash _ _ HK _ _ (eo_key _ _ HQ _ _ Heq)) in Hcov, Hne0.
      destruct (Nat.lt_trichotomy n0 n) as [Hlt|[->|Hgt]].
      * rewrite (Hprev n0 e i Hlt Hcov Hs) in Heq. discriminate.
      * rewrite (Hhere e i Hcov Hs) in Heq. discriminate.
      * specialize (Hne0 n Hgt). apply (any_empty_nempty E HG _ _ _ _ Hwf Ho Hw) in Hne0. congruence.
    + assert (Hnen : nempty E (t_ctrl t) (t_cap t) o) by (apply (any_empty_nempty E HG _ _ _ _ Hwf Ho Hw); assumption).
      unfold o. rewrite (probe_next_off E _ _ _ (wfc_cap _ _ _ Hwf)).
      destruct (Nat.eq_dec n nstar) as [->|]; [contradiction|]. apply IH; [lia|lia| |].
      * intros n' Hn'. destruct (Nat.eq_dec n' n) as [->|]; [exact Hnen|apply Hne; lia].
      * intros n' e i Hn'. destruct (Nat.eq_dec n' n) as [->|]; [apply Hhere|apply Hprev; lia].
Qed.

Lemma stop_group (t : table) k : tinv t ->
  exists ns, ns <= t_cap t /\ ~ nempty E (t_ctrl t) (t_cap t) (poffh E (t_cap t) (hash k) ns).
Proof.
  intros Ht. pose proof (ti_wfc _ _ _ _ (tv_0 _ _ _ _ Ht)) as Hwf. pose proof (wfc_cap _ _ _ Hwf) as Hcap.
  destruct (tinv_has_empty hash eqb E HE HK t Ht) as [Hs|(i & Hi & He)].
  - exists 0. split; [lia|]. intros [H _]. lia.
  - destruct (cover_ex E HG (t_cap t) (probe_start (hash k) (t_cap t)) i Hcap) as (n & Hn & (d & Hd & HdM & Hmod) & _).
    + rewrite (poffh_0 E) by assumption. apply poffh_le.
    + lia.
    + exists n. split; [assumption|]. intros [_ Hne]. apply (Hne d Hd). unfold poffh. rewrite Hmod. assumption.
Qed.

Lemma has_element_ok (t : table) x : good t ->
  exists b, has_element hash E eeq t x = Ok b /\ (b = true <-> exists e, In e (elems (t_slots t)) /\ eeq e x = true).
Proof using HE HK HQ.
  intros Hg. unfold has_element. destruct Hg as [->|Ht].
  - exists false. split.
    + cbn [t_cap empty_table has_loop t_ctrl]. destruct (empty_window E HE (hash (fst x))) as (Hps & w & Hw & Hl & Hv & Hw0 & Hwd).
      rewrite Hps, Hw. cbn [rbind].
      assert (g_match g w (H2 (hash (fst x))) = [] /\ g_any_empty g w = true) as [Hm1 Hm2]; [|rewrite Hm1, Hm2; reflexivity].
      split.
      * destruct (g_match g w (H2 (hash (fst x)))) as [|d ds] eqn:Hgm; [reflexivity|exfalso].
        destruct (gok_match_sound _ HG w (H2 (hash (fst x))) d Hl Hv (H2_range _)) as (c & Hc & H0); [rewrite Hgm; left; reflexivity|].
        destruct d as [|d]; [rewrite Hw0 in Hc; injection Hc as <-; unfold kSentinel in H0; lia|].
        rewrite Hwd in Hc; [injection Hc as <-; unfold kEmpty in H0; lia|]. apply lookup_lt_Some in Hc. lia.
      * apply (gok_any_empty _ HG); [assumption|assumption|]. exists 1. apply Hwd.
        destruct (W_cases E HG) as [->| ->]; lia.
    + split; [discriminate|]. intros (e & [] & _).
  - destruct (stop_group t (fst x) Ht) as (ns & Hns & Hnn).
    rewrite (poffh_0 E _ _ (wfc_cap _ _ _ (ti_wfc _ _ _ _ (tv_0 _ _ _ _ Ht)))).
    apply (has_loop_ok t x ns (tv_0 _ _ _ _ Ht) Hnn (S (t_cap t)) 0); [lia|lia|intros; lia|intros; lia].
Qed.

Lemma all_in_ok (t : table) l : good t ->
  exists b, all_in hash E eeq l t = Ok b /\
    (b = true <-> forall x, In x l -> exists e, In e (elems (t_slots t)) /\ eeq e x = true).
Proof using HE HK HQ.
  intros Hg. induction l as [|x l (b & Hb & IH)]; cbn [all_in].
  - exists true. split; [reflexivity|]. split; [intros _ x []|reflexivity].
  - destruct (has_element_ok t x Hg) as (bx & Hx & Hbx). rewrite Hx. cbn [rbind]. destruct bx.
    + exists b. split; [assumption|]. rewrite IH. split.
      * intros H y [<-|Hy]; [apply Hbx; reflexivity|auto].
      * intros H y Hy. apply H. right. assumption.
    + exists false. split; [reflexivity|]. split; [discriminate|]. intros H. apply Hbx. apply H. left. reflexivity.
Qed.

Lemma match_inj (l1 : list elt) : forall l2, distinct eqb l1 ->
  (forall x, In x l1 -> exists e, In e l2 /\ eeq e x = true) ->
  exists l2a l2b, l2 ≡ₚ l2a ++ l2b /\ Forall2 (fun x e => eeq e x = true) l1 l2a.
Proof using HK HQ.
  induction l1 as [|x l1 IH]; intros l2 Hd Hm.
  - exists [], l2. split; [reflexivity|constructor].
  - destruct Hd as [Hx Hd]. destruct (Hm x (or_introl eq_refl)) as (e & He & Hex).
    destruct (in_split _ _ He) as (u & v & ->).
    destruct (IH (u ++ v) Hd) as (l2a & l2b & Hp & Hf).
    + intros y Hy. destruct (Hm y (or_intror Hy)) as (e' & He' & Hey). exists e'. split; [|assumption].
      apply in_app_or in He'. apply in_or_app. destruct He' as [?|[<-|?]]; [auto| |auto]. exfalso.
      assert (Hk : eqb (fst x) (fst y) = true).
      { apply (ko_trans _ _ HK _ (fst e)); apply (eo_key _ _ HQ); [rewrite (eo_sym _ _ HQ)|]; assumption. }
      rewrite (Hx y Hy) in Hk. discriminate.
    + exists (e :: l2a), l2b. split; [|constructor; assumption].
      rewrite <- Permutation_middle, Hp. reflexivity.
Qed.

Lemma table_eq_ok (a b : table) : good a -> good b ->
  exists r, table_eq hash E eeq a b = Ok r /\ (r = true <-> same_assocs eeq (elems (t_slots a)) (elems (t_slots b))).
Proof using HE HK HQ.
  intros Ha Hb. unfold table_eq.
  pose proof (good_size hash eqb E a Ha) as Hsa. pose proof (good_size hash eqb E b Hb) as Hsb.
  pose proof (good_dist hash eqb E a Ha) as Hda. pose proof (good_dist hash eqb E b Hb) as Hdb.
  assert (Hsym : forall m1 m2, same_assocs eeq m1 m2 <-> same_assocs (V:=V) eeq m2 m1).
  { intros m1 m2. unfold same_assocs. split; intros H e; specialize (H e); tauto. }
  assert (Hsub : forall l1 l2 : list elt, same_assocs eeq l1 l2 -> forall x, In x l1 -> exists e, In e l2 /\ eeq e x = true).
  { intros l1 l2 Hs x Hx. apply Hs. exists x. split; [assumption|apply (eo_refl _ _ HQ)]. }
  assert (Hlen : forall l1 l2 : list elt, distinct eqb l1 -> same_assocs eeq l1 l2 -> length l1 <= length l2).
  { intros l1 l2 Hd Hs. destruct (match_inj l1 l2 Hd (Hsub _ _ Hs)) as (x & y & Hp & Hf).
    rewrite (Permutation_length Hp), app_length, (Forall2_length _ _ _ Hf). lia. }
  assert (Hback : forall l1 l2 : list elt, distinct eqb l1 -> length l1 = length l2 ->
     (forall x, In x l1 -> exists e, In e l2 /\ eeq e x = true) -> same_assocs eeq l1 l2).
  { intros l1 l2 Hd Hl Hm. destruct (match_inj l1 l2 Hd Hm) as (x & y & Hp & Hf).
    pose proof (Permutation_length Hp) as Hpl. rewrite app_length, <- (Forall2_length _ _ _ Hf) in Hpl.
    assert (y = []) as -> by (apply nil_length_inv; lia). rewrite app_nil_r in Hp.
    intros e. split.
    - intros (z & Hz & Hze). destruct (Hm z Hz) as (z' & Hz' & Hzz). exists z'. split; [assumption|].
      eapply (eo_trans _ _ HQ); eassumption.
    - intros (z & Hz & Hze). apply (Permutation_in _ Hp) in Hz. apply elem_of_list_In in Hz. apply elem_of_list_lookup in Hz.
      destruct Hz as [i Hi]. destruct (Forall2_lookup_r _ _ _ _ _ Hf Hi) as (z' & Hz' & Hzz).
      exists z'. split; [apply elem_of_list_In, elem_of_list_lookup; eauto|].
      eapply (eo_trans _ _ HQ); [|exact Hze]. rewrite (eo_sym _ _ HQ). assumption. }
  destruct (Nat.eqb_spec (t_size a) (t_size b)) as [Hsz|Hsz].
  - destruct (t_cap b <? t_cap a).
    + destruct (iterate_ok hash eqb E HE HK b Hb) as (is & _ & Htl & _ & _). rewrite Htl. cbn [rbind].
      destruct (all_in_ok a (elems (t_slots b)) Ha) as (r & Hr & Hiff). exists r. split; [assumption|]. rewrite Hiff, Hsym.
      split; [apply Hback; [assumption|lia]|apply Hsub].
    + destruct (iterate_ok hash eqb E HE HK a Ha) as (is & _ & Htl & _ & _). rewrite Htl. cbn [rbind].
      destruct (all_in_ok b (elems (t_slots a)) Hb) as (r & Hr & Hiff). exists r. split; [assumption|]. rewrite Hiff.
      split; [apply Hback; [assumption|lia]|apply Hsub].
  - exists false. split; [reflexivity|]. split; [discriminate|]. intros Hs.
    pose proof (Hlen _ _ Hda Hs). apply Hsym in Hs. pose proof (Hlen _ _ Hdb Hs). lia.
Qed.

(** ** traversal steps *)
Lemma next_ok (t : table) i : tinv t -> i < t_cap t ->
  exists j, next_it E t i = Ok j /\ i < j <= t_cap t /\ (j = t_cap t \/ exists e, t_slots t !! j = Some (Some e)) /\
    elems (drop (S i) (t_slots t)) = elems (drop j (t_slots t)) /\
    (forall x, i < x < j -> t_slots t !! x = Some None).
Proof.
  intros Ht Hi. unfold next_it.
  destruct (skip_ok hash eqb E HE HK t Ht (S (S (t_cap t))) (S i) ltac:(lia) ltac:(lia)) as (j & Hj & Hr & Hor & Hn).
  exists j. split; [exact Hj|]. split; [lia|]. split; [assumption|]. split; [|intros x Hx; apply Hn; lia].
  replace j with (S i + (j - S i)) by lia. apply elems_drop_none.
  - rewrite (ti_slen _ _ _ _ (tv_0 _ _ _ _ Ht)). lia.
  - intros x Hx. apply Hn. lia.
Qed.
Lemma begin_ok (t : table) : tinv t ->
  exists j, begin_it E t = Ok j /\ j <= t_cap t /\ (j = t_cap t \/ exists e, t_slots t !! j = Some (Some e)) /\
    elems (t_slots t) = elems (drop j (t_slots t)) /\ elems (take j (t_slots t)) = [] /\
    (forall x, x < j -> t_slots t !! x = Some None).
Proof.
  intros Ht. unfold begin_it.
  destruct (skip_ok hash eqb E HE HK t Ht (S (S (t_cap t))) 0 ltac:(lia) ltac:(lia)) as (j & Hj & Hr & Hor & Hn).
  exists j. split; [exact Hj|]. split; [lia|]. split; [assumption|].
  pose proof (ti_slen _ _ _ _ (tv_0 _ _ _ _ Ht)) as Hsl.
  assert (Hd : elems (drop 0 (t_slots t)) = elems (drop (0 + j) (t_slots t))).
  { apply elems_drop_none; [lia|]. intros x Hx. apply Hn. lia. }
  rewrite drop_0 in Hd. cbn [Nat.add] in Hd. split; [exact Hd|]. split; [|intros x Hx; apply Hn; lia].
  apply nil_length_inv.
  assert (Ha : elems (t_slots t) = elems (take j (t_slots t)) ++ elems (drop j (t_slots t))).
  { rewrite <- (take_drop j (t_slots t)) at 1. unfold elems. apply omap_app. }
  apply (f_equal length) in Ha. rewrite app_length in Ha. rewrite Hd in Ha at 1. lia.
Qed.
Lemma elems_split (slots : list (option elt)) i : elems slots = elems (take i slots) ++ elems (drop i slots).
Proof using. rewrite <- (take_drop i slots) at 1. unfold elems. apply omap_app. Qed.
Lemma elems_take_next (slots : list (option elt)) i j : i < j -> j <= length slots -> slots !! i = Some None ->
  (forall x, i < x < j -> slots !! x = Some None) -> elems (take j slots) = elems (take i slots).
Proof using.
  intros Hij Hj Hi Hx.
  rewrite (elems_split (take j slots) i). rewrite take_take, Nat.min_l by lia.
  replace (elems (drop i (take j slots))) with (@nil elt); [apply app_nil_r|].
  symmetry. apply nil_length_inv.
  assert (Hn : elems (drop i (take j slots)) = elems (drop (i + (j - i)) (take j slots))).
  { apply elems_drop_none; [rewrite take_length; lia|]. intros x Hxx. rewrite lookup_take by lia.
    destruct (Nat.eq_dec x i) as [->|]; [assumption|apply Hx; lia]. }
  rewrite Hn, drop_ge by (rewrite take_length; lia). reflexivity.
Qed.
Lemma elems_take_next_full (slots : list (option elt)) i j e : i < j -> j <= length slots -> slots !! i = Some (Some e) ->
  (forall x, i < x < j -> slots !! x = Some None) -> elems (take j slots) = elems (take i slots) ++ [e].
Proof using.
  intros Hij Hj Hi Hx.
  rewrite (elems_split (take j slots) i). rewrite take_take, Nat.min_l by lia. f_equal.
  rewrite (drop_cons _ i (Some e)) by (rewrite lookup_take by lia; assumption). rewrite elems_cons_some. f_equal.
  assert (Hn : elems (drop (S i) (take j slots)) = elems (drop (S i + (j - S i)) (take j slots))).
  { apply elems_drop_none; [rewrite take_length; lia|]. intros x Hxx. rewrite lookup_take by lia. apply Hx; lia. }
  rewrite Hn, drop_ge by (rewrite take_length; lia). reflexivity.
Qed.

(** ** erase_if *)
Lemma erase_if_loop_ok p : forall fuel i (t : table), tinv t -> i <= t_cap t -> t_cap t - i < fuel ->
  (i = t_cap t \/ exists e, t_slots t !! i = Some (Some e)) ->
  exists t', erase_if_loop E fuel p t i = Ok (t', elems (drop i (t_slots t))) /\ tinv t' /\ t_cap t' = t_cap t /\
    elems (t_slots t') = elems (take i (t_slots t)) ++ List.filter (fun e => negb (p e)) (elems (drop i (t_slots t))) /\
    (forall x e, t_slots t !! x = Some (Some e) -> (i <= x -> p e = false) -> t_slots t' !! x = Some (Some e)).
Proof.
  induction fuel as [|f IH]; intros i t Ht Hi Hf Hst; [lia|]. cbn [erase_if_loop].
  pose proof (ti_slen _ _ _ _ (tv_0 _ _ _ _ Ht)) as Hsl.
  destruct (Nat.eqb_spec i (t_cap t)) as [->|Hne].
  - exists t. rewrite drop_ge by lia. split; [reflexivity|]. split; [assumption|]. split; [reflexivity|]. split; [|auto].
    rewrite take_ge by lia. cbn. rewrite app_nil_r. reflexivity.
  - destruct Hst as [?|(e & He)]; [congruence|].
    unfold deref. rewrite (load_some _ _ _ He). cbn [rbind of_option].
    destruct (next_ok t i Ht ltac:(lia)) as (j & Hj & Hij & Hjs & Hel & Hbet). rewrite Hj. cbn [rbind].
    assert (Hdr : elems (drop i (t_slots t)) = e :: elems (drop j (t_slots t))).
    { rewrite (drop_cons _ _ _ He), elems_cons_some, Hel. reflexivity. }
    rewrite Hdr. cbn [List.filter]. destruct (p e) eqn:Hpe; cbn [negb].
    + destruct (erase_at_ok hash eqb E HG HK t i e Ht He) as (t1 & Her & Ht1 & Hsl1 & Hcap1 & Hsz1 & Hp1).
      rewrite Her. cbn [rbind].
      assert (Hdj : drop j (t_slots t1) = drop j (t_slots t)) by (rewrite Hsl1; apply drop_insert_gt; lia).
      destruct (IH j t1 Ht1 ltac:(lia) ltac:(lia)) as (t2 & Hr & Ht2 & Hcap2 & Hel2 & Hk2).
      { destruct Hjs as [->|(e' & He')]; [left; congruence|right; exists e'].
        rewrite Hsl1, list_lookup_insert_ne by lia. assumption. }
      rewrite Hr. cbn [rbind]. exists t2. rewrite Hdj. split; [reflexivity|]. split; [assumption|]. split; [congruence|]. split.
      * rewrite Hel2, Hdj. f_equal.
        rewrite (elems_take_next (t_slots t1) i j).
        -- rewrite Hsl1, take_insert by lia. reflexivity.
        -- lia.
        -- rewrite Hsl1, insert_length. lia.
        -- rewrite Hsl1. apply list_lookup_insert. lia.
        -- intros x Hx. rewrite Hsl1, list_lookup_insert_ne by lia. apply Hbet. assumption.
      * intros x ex Hx Hpx. apply Hk2.
        -- rewrite Hsl1, list_lookup_insert_ne; [assumption|]. intros <-. rewrite He in Hx. injection Hx as <-.
           rewrite Hpx in Hpe by lia. discriminate.
        -- intros. apply Hpx. lia.
    + cbn [rbind]. destruct (IH j t Ht ltac:(lia) ltac:(lia) Hjs) as (t2 & Hr & Ht2 & Hcap2 & Hel2 & Hk2).
      rewrite Hr. cbn [rbind]. exists t2. split; [reflexivity|]. split; [assumption|]. split; [congruence|]. split.
      * rewrite Hel2. rewrite (elems_take_next_full (t_slots t) i j e) by (try assumption; lia).
        rewrite <- app_assoc. reflexivity.
      * intros x ex Hx Hpx. apply Hk2; [assumption|]. intros. apply Hpx. lia.
Qed.

Lemma filter_length_compl {A} (p : A -> bool) (l : list A) :
  length (List.filter p l) + length (List.filter (fun e => negb (p e)) l) = length l.
Proof using. induction l as [|x l IH]; cbn; [reflexivity|]. destruct (p x); cbn; lia. Qed.

Lemma erase_if_ok p (t : table) : good t ->
  exists t', erase_if E p t = Ok (t', length (List.filter p (elems (t_slots t))), elems (t_slots t)) /\ good t' /\
    t_cap t' = t_cap t /\ elems (t_slots t') = List.filter (fun e => negb (p e)) (elems (t_slots t)) /\
    (forall x e, t_slots t !! x = Some (Some e) -> p e = false -> t_slots t' !! x = Some (Some e)).
Proof.
  intros Hg. unfold erase_if. pose proof (good_size hash eqb E t Hg) as Hsz. destruct Hg as [->|Ht].
  - exists empty_table. split; [reflexivity|]. split; [left; reflexivity|]. split; [reflexivity|]. split; [reflexivity|auto].
  - destruct (begin_ok t Ht) as (i & Hi & Hic & His & Hd & Htk & Hnone). rewrite Hi. cbn [rbind].
    destruct (erase_if_loop_ok p (S (t_cap t)) i t Ht Hic ltac:(lia) His) as (t' & Hr & Ht' & Hcap & Hel & Hk).
    rewrite Hr. cbn [rbind]. exists t'. rewrite Htk in Hel. cbn [app] in Hel. rewrite <- Hd in Hel |- *.
    split.
    + f_equal. f_equal. f_equal. rewrite Hsz, (good_size hash eqb E t' (or_intror Ht')), Hel.
      pose proof (filter_length_compl p (elems (t_slots t))). lia.
    + split; [right; assumption|]. split; [assumption|]. split; [assumption|]. intros x e Hx Hp. apply Hk; auto.
Qed.

(** ** merge *)
Definition keyin (l : list elt) (e : elt) : Prop := exists x, In x l /\ eqb (fst e) (fst x) = true.
Lemma merge_loop_ok : forall fuel i (dst src : table), good dst -> tinv src -> i <= t_cap src -> t_cap src - i < fuel ->
  (i = t_cap src \/ exists e, t_slots src !! i = Some (Some e)) ->
  exists dst' src' b moved rest, merge_loop hash eqb E fuel dst src i = Ok (dst', src', b) /\ good dst' /\ tinv src' /\
    elems (drop i (t_slots src)) ≡ₚ moved ++ rest /\
    elems (t_slots dst') ≡ₚ moved ++ elems (t_slots dst) /\
    elems (t_slots src') ≡ₚ elems (take i (t_slots src)) ++ rest /\
    (forall e, In e moved -> absent eqb dst (fst e)) /\
    (b = false -> forall e, In e rest -> keyin (elems (t_slots dst)) e).
Proof.
  induction fuel as [|f IH]; intros i dst src Hg Ht Hi Hf Hst; [lia|]. cbn [merge_loop].
  pose proof (ti_slen _ _ _ _ (tv_0 _ _ _ _ Ht)) as Hsl.
  destruct (Nat.eqb_spec i (t_cap src)) as [->|Hne].
  - exists dst, src, false, [], []. split; [reflexivity|]. split; [assumption|]. split; [assumption|].
    rewrite drop_ge, take_ge by lia. split; [reflexivity|]. split; [reflexivity|]. split; [rewrite app_nil_r; reflexivity|].
    split; [intros e []|intros _ e []].
  - destruct Hst as [?|(e & He)]; [congruence|].
    unfold deref. rewrite (load_some _ _ _ He). cbn [rbind of_option].
    destruct (next_ok src i Ht ltac:(lia)) as (j0 & Hj0 & Hij0 & Hjs0 & Hel0 & Hbet0).
    assert (Hdr0 : elems (drop i (t_slots src)) = e :: elems (drop j0 (t_slots src))).
    { rewrite (drop_cons _ _ _ He), elems_cons_some, Hel0. reflexivity. }
    assert (Hsd : forall x, In x (elems (drop j0 (t_slots src))) -> eqb (fst e) (fst x) = false).
    { pose proof (ti_dist _ _ _ _ (tv_0 _ _ _ _ Ht)) as Hd. rewrite (elems_split _ i), Hdr0 in Hd.
      eapply (distinct_perm eqb (ko_sym _ _ HK)) in Hd; [|apply Permutation_app_comm].
      destruct Hd as [Hd _]. intros x Hx. apply Hd. apply in_or_app. auto. }
    destruct (present_or_absent eqb dst (fst e)) as [(q & y & Hy & Hk)|Ha].
    + rewrite (emplace_old hash eqb E HE HK dst _ (snd e) q y Hg Hy Hk). cbn [rbind]. rewrite Hj0. cbn [rbind].
      destruct (IH j0 dst src Hg Ht ltac:(lia) ltac:(lia) Hjs0) as (dst' & src' & b & mv & rs & Hr & Hg' & Ht' & P1 & P2 & P3 & P4 & P5).
      exists dst', src', b, mv, (e :: rs). split; [exact Hr|]. split; [assumption|]. split; [assumption|].
      split; [rewrite Hdr0, P1; apply Permutation_middle|]. split; [assumption|].
      split; [rewrite P3, (elems_take_next_full (t_slots src) i j0 e) by (try assumption; lia); rewrite <- app_assoc; reflexivity|].
      split; [assumption|]. intros Hb x [<-|Hx]; [|apply P5; assumption]. exists y. split; [|assumption]. apply elems_in. eauto.
    + destruct (emplace_new hash eqb E HE HK dst (fst e) (snd e) Hg Ha) as [(Hb & _)|(dst1 & q & Hem & Ht1 & Hsl1 & Hsz1 & Hp1 & _)].
      * rewrite Hb. exists dst, src, true, [], (elems (drop i (t_slots src))). split; [reflexivity|]. split; [assumption|]. split; [assumption|].
        split; [reflexivity|]. split; [reflexivity|]. split; [rewrite <- elems_split; reflexivity|]. split; [intros x []|discriminate].
      * rewrite Hem. destruct (erase_at_ok hash eqb E HG HK src i e Ht He) as (s1 & Her & Hts1 & Hsl2 & Hcap1 & _ & _).
        rewrite Her. cbn [rbind].
        destruct (next_ok s1 i Hts1 ltac:(lia)) as (j & Hj & Hij & Hjs & Hel & Hbet). rewrite Hj. cbn [rbind].
        assert (Hdj : elems (drop j (t_slots s1)) = elems (drop j0 (t_slots src))).
        { rewrite <- Hel, Hsl2, drop_insert_gt by lia. exact Hel0. }
        destruct (IH j dst1 s1 (or_intror Ht1) Hts1 ltac:(lia) ltac:(lia) Hjs) as (dst' & src' & b & mv & rs & Hr & Hg' & Ht' & P1 & P2 & P3 & P4 & P5).
        rewrite <- surjective_pairing in Hp1.
        exists dst', src', b, (e :: mv), rs. split; [exact Hr|]. split; [assumption|]. split; [assumption|].
        rewrite Hdj in P1.
        split; [rewrite Hdr0, P1; reflexivity|].
        split; [rewrite P2, Hp1; symmetry; apply Permutation_middle|].
        split.
        { rewrite P3. rewrite (elems_take_next (t_slots s1) i j).
          - rewrite Hsl2, take_insert by lia. reflexivity.
          - lia.
          - rewrite Hsl2, insert_length. lia.
          - rewrite Hsl2. apply list_lookup_insert. lia.
          - assumption. }
        split.
        { intros x [<-|Hx]; [assumption|]. intros z Hz. apply (P4 x Hx). eapply Permutation_in; [symmetry; exact Hp1|]. right. assumption. }
        intros Hbf x Hx. destruct (P5 Hbf x Hx) as (z & Hz & Hzk). apply (Permutation_in _ Hp1) in Hz.
        destruct Hz as [<-|Hz]; [|exists z; auto]. exfalso.
        assert (Hxd : In x (elems (drop j0 (t_slots src)))) by (eapply Permutation_in; [symmetry; exact P1|apply in_or_app; auto]).
        rewrite (ko_sym _ _ HK), (Hsd x Hxd) in Hzk. discriminate.
Qed.

Lemma merge_ok (dst src : table) : good dst -> good src ->
  exists dst' src' b moved rest, merge hash eqb E dst src = Ok (dst', src', b) /\ good dst' /\ good src' /\
    elems (t_slots src) ≡ₚ moved ++ rest /\
    elems (t_slots dst') ≡ₚ moved ++ elems (t_slots dst) /\ elems (t_slots src') ≡ₚ rest /\
    (forall e, In e moved -> absent eqb dst (fst e)) /\
    (b = false -> forall e, In e rest -> keyin (elems (t_slots dst)) e).
Proof.
  intros Hd Hs. unfold merge. destruct Hs as [->|Ht].
  - exists dst, empty_table, false, [], []. split; [reflexivity|]. split; [assumption|]. split; [left; reflexivity|].
    split; [reflexivity|]. split; [reflexivity|]. split; [reflexivity|]. split; [intros e []|intros _ e []].
  - destruct (begin_ok src Ht) as (i & Hi & Hic & His & Hdr & Htk & _). rewrite Hi. cbn [rbind].
    destruct (merge_loop_ok (S (t_cap src)) i dst src Hd Ht Hic ltac:(lia) His) as (dst' & src' & b & mv & rs & Hr & Hg' & Ht' & P1 & P2 & P3 & P4 & P5).
    exists dst', src', b, mv, rs. rewrite Htk in P3. rewrite <- Hdr in P1. split; [assumption|]. split; [assumption|]. split; [right; assumption|]. auto.
Qed.
End MultiProof.
