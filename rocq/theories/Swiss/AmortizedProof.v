(** Rehashing is amortised: the potential argument. *)
From stdpp Require Import list.
From Coq Require Import Arith NArith ZArith Lia.
From Coq Require Import ZifyBool ZifyNat ZifyN.
From Verif.Common Require Import Res Word WordFacts.
From Verif.Swiss Require Import Group GroupSpec Model Probe Inv TableInv Resize Ops MapSpec History Reserve Amortized.
Ltac Zify.zify_post_hook ::= Z.div_mod_to_equations.
Local Open Scope nat_scope.
Local Open Scope res_scope.
Local Arguments cnt : simpl never.
Local Arguments elems : simpl never.

Section Amort.
Context {K V : Type} (hash : K -> N) (eqb : K -> K -> bool) (E : env).
Context (HE : env_ok E) (HK : KeyOK hash eqb).
Set Default Proof Using "HE HK".
Notation W := (g_width (e_group E)).
Notation elt := (K * V)%type.
Notation table := (table K V).
Notation good := (good hash eqb E).
Notation tinv := (tinv hash eqb E).

(** what the table has saved up for its next rehash *)
Definition phi (t : table) : nat := 3 * (CapacityToGrowth W (t_cap t) - 2 * N.to_nat (t_growth t)).

Lemma cap_growth cap : valid_cap cap -> 2 * cap + 1 <= 3 * CapacityToGrowth W cap /\
  2 * CapacityToGrowth W cap <= CapacityToGrowth W (2 * cap + 1).
Proof using HE.
  intros Hv. pose proof (valid_cap_cases cap Hv) as Hc. unfold CapacityToGrowth.
  destruct (W_cases E (eo_group E HE)) as [->| ->]; cbn [Nat.eqb andb];
    destruct Hc as [->|[->|[->|Hc]]]; try (cbn; lia).
  - destruct (Nat.eqb_spec cap 7), (Nat.eqb_spec (2 * cap + 1) 7); lia.
  - lia.
Qed.
Lemma phi_empty : phi empty_table = 0.
Proof using. unfold phi. change (t_cap empty_table) with 0. rewrite growth_0. reflexivity. Qed.
Lemma tinv_growth64 (t : table) : tinv t -> (t_growth t < 2 ^ 64)%N.
Proof.
  intros Ht. rewrite (tv_growth _ _ _ _ Ht). destruct (size_bound hash eqb E HE t Ht) as [_ Hc].
  pose proof (cap_le_growth E (t_cap t)).
  change (2 ^ 64)%N with (4 * 2 ^ 62)%N. lia.
Qed.

(** a rehash pays for itself and leaves nothing owed *)
Lemma grow_phi (t t1 : table) n : good t -> t_growth t = 0%N -> rehash_and_grow_c hash E t = Ok (t1, n) ->
  1 <= n /\ n <= phi t + (if t_cap t =? 0 then 1 else 0) /\ phi t1 = 0 /\ tinv t1 /\ t_size t1 = t_size t /\
  (0 < t_growth t1)%N /\ (t_cap t = 0 -> CapacityToGrowth W (t_cap t1) <= 1).
Proof.
  intros Hg H0 Hr. pose proof (grow_steps _ _ _ _ _ Hr) as Hn.
  assert (Hr' : rehash_and_grow_if_necessary hash E t = Ok t1) by (rewrite <- grow_forget, Hr; reflexivity).
  destruct (grow_ok hash eqb E HE HK t Hg H0) as [[Hb _]|(t2 & Hr2 & Ht2 & Hnd & Hsz & Hp & Hroom & Hcap)]; [congruence|].
  rewrite Hr' in Hr2. injection Hr2 as <-.
  pose proof (tv_growth _ _ _ _ Ht2) as Hgr. rewrite Hnd, Hsz in Hgr.
  assert (Hpos : (0 < t_growth t1)%N) by lia.
  split; [lia|]. split; [|split; [|split; [assumption|split; [assumption|split; [assumption|]]]]].
  3: { intros Hc0. pose proof (cap_le_growth E (t_cap t1)). pose proof (valid_cap_cases _ (tinv_cap hash eqb E t1 Ht2)). lia. }
  - destruct Hg as [->|Ht].
    + change (t_cap empty_table) with 0 in *. cbn [Nat.eqb]. lia.
    + pose proof (tinv_cap hash eqb E t Ht) as Hv.
      destruct (cap_growth _ Hv) as [H1 _]. unfold phi. rewrite H0. lia.
  - unfold phi. rewrite Hgr, Nat2N.id.
    assert (Hhalf : 2 * t_size t <= CapacityToGrowth W (t_cap t1)); [|lia].
    destruct Hg as [->|Ht]; [cbn; lia|].
    pose proof (tinv_cap hash eqb E t Ht) as Hv. pose proof (valid_cap_cases _ Hv) as Hvc.
    destruct (cap_growth _ Hv) as [_ H2]. pose proof (tv_room _ _ _ _ Ht) as Hroom0.
    destruct Hcap as [Hcap|Hcap]; rewrite Hcap in *; [|lia].
    unfold rehash_and_grow_if_necessary in Hr'. destruct (Nat.eqb_spec (t_cap t) 0); [lia|].
    destruct (Nat.leb_spec (t_size t) (CapacityToGrowth W (t_cap t) / 2)) as [Hle|Hgt]; [lia|].
    exfalso. destruct (no_wrap_double E HE (t_cap t) (tv_bytes _ _ _ _ Ht) ltac:(lia)) as [Hnw Hwa]. rewrite Hwa in Hr'.
    assert (Hto : N.to_nat (2 * N.of_nat (t_cap t) + 1) = 2 * t_cap t + 1) by lia.
    destruct (size_bound hash eqb E HE t Ht) as [_ Hc62].
    destruct (resize_tinv hash eqb E HE HK t (2 * N.of_nat (t_cap t) + 1)) as [[Hb Hlt]|(t' & Hr3 & Ht' & Hnd3 & Hsz3 & Hcap3 & Hp3)].
    * right. assumption.
    * rewrite Hto. apply valid_cap_double; assumption.
    * assumption.
    * rewrite Hto. lia.
    * congruence.
    * rewrite Hr' in Hr3. injection Hr3 as <-. rewrite Hto in Hcap3. lia.
Qed.

Lemma emplace_phi (t t' : table) k v p b n : good t -> emplace_c hash eqb E t k v = Ok (t', p, b, n) ->
  good t' /\ n + phi t' <= phi t + (if b then 6 else 0) /\ (b = false -> t' = t /\ n = 0 /\ exists e, t_slots t !! p = Some (Some e)) /\
  (n = 0 -> kept t t').
Proof.
  intros Hg He.
  assert (He' : emplace hash eqb E t k v = Ok (t', p, b)) by (rewrite <- emplace_forget, He; reflexivity).
  destruct (present_or_absent eqb t k) as [(i & e & Hs & Hk)|Ha].
  - rewrite (emplace_old hash eqb E HE HK t k v i e Hg Hs Hk) in He'. injection He' as <- <- <-.
    unfold emplace_c in He. rewrite (good_find_present hash eqb E HE HK t k i e Hg Hs Hk) in He. cbn [rbind] in He.
    injection He as <-. split; [assumption|]. split; [lia|]. split; [eauto|]. intros _; apply kept_refl.
  - destruct (emplace_new hash eqb E HE HK t k v Hg Ha) as [(Hb & _)|(t2 & q & He2 & Ht2 & Hsl & Hsz & Hperm & _)]; [congruence|].
    rewrite He' in He2. injection He2 as <- <- ->. split; [right; assumption|].
    unfold emplace_c in He. rewrite (good_find_absent hash eqb E HE HK t k Hg Ha) in He. cbn [rbind] in He.
    destruct (prepare_insert_c hash E t (hash k)) as [[[tp q] m]| | | |] eqn:Hp; cbn [rbind] in He; try discriminate.
    destruct (finish_insert hash E tp q (k, v)) as [tf| | | |] eqn:Hf; cbn [rbind] in He; try discriminate.
    injection He as -> -> ->.
    assert (Hfin : t_cap t' = t_cap tp /\ t_growth t' = t_growth tp /\ t_slots t' = <[p := Some (k, v)]> (t_slots tp) /\ t_slots tp !! p = Some None).
    { unfold finish_insert, construct in Hf. destruct (load (t_slots tp) p) as [s| | | |] eqn:Hl; cbn [rbind] in Hf; try discriminate.
      unfold load in Hl. destruct (t_slots tp !! p) eqn:Hl'; cbn [of_option] in Hl; try discriminate. injection Hl as ->.
      destruct s; [discriminate|]. unfold store in Hf. destruct (_ <? _); cbn [rbind] in Hf; try discriminate.
      destruct (set_ctrl _ _ _ _ _) as [ct| | | |]; cbn [rbind] in Hf; try discriminate. injection Hf as <-. cbn. auto. }
    destruct Hfin as (Hc1 & Hg1 & Hs1 & Hs2).
    unfold prepare_insert_c in Hp.
    destruct (find_first_non_full E (t_ctrl t) (t_cap t) (hash k)) as [p0| | | |] eqn:Hff; cbn [rbind] in Hp; try discriminate.
    destruct (load (t_ctrl t) p0) as [c0| | | |] eqn:Hl0; cbn [rbind] in Hp; try discriminate.
    destruct ((t_growth t =? 0)%N && negb (IsDeleted c0)) eqn:Hcond; cbn [rbind] in Hp.
    + apply andb_true_iff in Hcond. destruct Hcond as [Hz _]. apply N.eqb_eq in Hz.
      destruct (rehash_and_grow_c hash E t) as [[t1 n1]| | | |] eqn:Hr; cbn [rbind] in Hp; try discriminate.
      destruct (find_first_non_full E (t_ctrl t1) (t_cap t1) (hash k)) as [p1| | | |]; cbn [rbind] in Hp; try discriminate.
      destruct (load (t_ctrl t1) p1) as [c1| | | |]; cbn [rbind] in Hp; try discriminate.
      injection Hp as <- -> ->. cbn [t_cap t_growth t_slots] in *.
      destruct (grow_phi t t1 n Hg Hz Hr) as (Hn1 & Hn2 & Hph & Ht1 & Hsz1 & Hpos & Hc01).
      pose proof (tinv_growth64 t1 Ht1) as H64.
      assert (Hw : N.to_nat (t_growth t') + 1 >= N.to_nat (t_growth t1)).
      { rewrite Hg1. destruct (IsEmpty c1); rewrite wsub_small by lia; lia. }
      split; [|split; [discriminate|lia]].
      unfold phi in *. rewrite Hc1. destruct (Nat.eqb_spec (t_cap t) 0) as [Hz0|Hz0]; [specialize (Hc01 Hz0)|]; lia.
    + rewrite Hl0 in Hp. cbn [rbind] in Hp. injection Hp as <- <- <-. cbn [t_cap t_growth t_slots] in *.
      assert (Ht : tinv t). { destruct Hg as [->|]; [discriminate|assumption]. }
      assert (Hw : N.to_nat (t_growth t') + 1 >= N.to_nat (t_growth t)).
      { pose proof (tinv_growth64 t Ht) as H64. rewrite Hg1. destruct (IsEmpty c0) eqn:Hemp.
        - destruct (N.eq_dec (t_growth t) 0) as [Hz|Hz]; [rewrite Hz in *; lia|]. rewrite wsub_small by lia. lia.
        - rewrite wsub_small by lia. lia. }
      split; [unfold phi; rewrite Hc1; lia|]. split; [discriminate|]. intros _. split; [assumption|].
      intros j e' Hj. exists (snd e'). rewrite Hs1, list_lookup_insert_ne by congruence. destruct e'; assumption.
Qed.

(** a growth counter that does not go down at the same capacity owes no more *)
Lemma phi_mono (t t' : table) : t_cap t' = t_cap t -> (t_growth t <= t_growth t')%N -> phi t' <= phi t.
Proof using. intros H1 H2. unfold phi. rewrite H1. lia. Qed.
Lemma clear_phi (t t' : table) : good t -> clear E t = Ok t' -> phi t' <= phi t.
Proof.
  intros Hg Hc. destruct (clear_ok hash eqb E HE HK t Hg) as (t1 & Hc1 & Hg1 & Hsz & _ & Hcap).
  rewrite Hc in Hc1. injection Hc1 as <-. unfold clear in Hc.
  destruct (t_size t =? 0); [injection Hc as <-; lia|].
  destruct (t_cap t =? 0) eqn:Hz; [injection Hc as <-; lia|].
  destruct (load _ _) as [l| | | |]; cbn [rbind] in Hc; try discriminate. injection Hc as <-.
  destruct Hg as [->|Ht]; [discriminate|].
  unfold phi. cbn [t_cap t_growth]. rewrite (growth_left_small E HE) by (try apply (tinv_cap hash eqb E t Ht); lia). lia.
Qed.
Lemma erase_phi (t t' : table) k e : good t -> erase_key hash eqb E t k = Ok (e, t') -> good t' /\ phi t' <= phi t /\
  t_cap t' = t_cap t /\ forall i x, t_slots t !! i = Some (Some x) -> t_slots t' !! i = Some (Some x) \/ absent eqb t' (fst x).
Proof.
  intros Hg He. destruct (present_or_absent eqb t k) as [(i & x & Hs & Hk)|Ha].
  - destruct (erase_key_present hash eqb E HE HK t k i x Hg Hs Hk) as (t1 & He1 & Ht1 & Hsl & Hcap & Hsz & Hperm).
    rewrite He in He1. injection He1 as -> <-. split; [right; assumption|].
    assert (Hph : phi t' <= phi t).
    { assert (Ht : tinv t) by (destruct Hg as [->|]; [discriminate|assumption]).
      apply phi_mono; [assumption|]. unfold erase_key in He.
      rewrite (good_find_present hash eqb E HE HK t k i x Hg Hs Hk) in He. cbn [rbind] in He. unfold erase_at in He.
      destruct (take_slot (t_slots t) i) as [[e1 sl]| | | |]; cbn [rbind] in He; try discriminate.
      unfold erase_meta_only in He. cbn [t_ctrl t_slots t_size t_cap t_growth] in He.
      destruct (load _ _) as [c| | | |]; cbn [rbind] in He; try discriminate. destruct (IsFull c); [|discriminate].
      destruct (window _ _ _) as [wa| | | |]; cbn [rbind] in He; try discriminate.
      destruct (window _ _ _) as [wb| | | |]; cbn [rbind] in He; try discriminate.
      destruct (set_ctrl _ _ _ _ _) as [ct| | | |]; cbn [rbind] in He; try discriminate.
      injection He as _ <-. cbn [t_growth]. destruct (size_bound hash eqb E HE t Ht) as [_ Hc62].
      pose proof (cap_le_growth E (t_cap t)) as Hcg. pose proof (tv_growth _ _ _ _ Ht) as Hgr.
      rewrite wadd_small; [destruct (_ && _); lia|]. change (2 ^ 64)%N with (4 * 2 ^ 62)%N. destruct (_ && _); lia. }
    split; [assumption|]. split; [assumption|]. intros j y Hj. rewrite Hsl. destruct (Nat.eq_dec j i) as [->|Hne].
    + right. rewrite Hs in Hj. injection Hj as <-. pose proof (good_dist hash eqb E t Hg) as Hd.
      pose proof (distinct_perm eqb (ko_sym _ _ HK) _ _ Hperm Hd) as [Hx _]. exact Hx.
    + left. rewrite list_lookup_insert_ne by congruence. assumption.
  - unfold erase_key in He. rewrite (good_find_absent hash eqb E HE HK t k Hg Ha) in He. cbn [rbind] in He.
    injection He as <- <-. split; [assumption|]. split; [lia|]. split; [reflexivity|]. auto.
Qed.

(** ** Runs *)
(** the calls that do not ask for a capacity *)
Definition automatic (o : op K V) : Prop := match o with ORehash _ | OReserve _ => False | _ => True end.
(** the capacity is the same, and every element is in its old slot (perhaps with a new value) or gone *)
Definition stays (t t' : table) : Prop :=
  t_cap t' = t_cap t /\
  forall i e, t_slots t !! i = Some (Some e) -> (exists v, t_slots t' !! i = Some (Some (fst e, v))) \/ absent eqb t' (fst e).
Lemma kept_stays t t' : kept t t' -> stays t t'.
Proof using. intros [H1 H2]. split; [assumption|]. intros i e He. left. eauto. Qed.
(** the answers that report an insertion *)
Definition is_insert (r : out K V) : bool := match r with RInserted true _ => true | _ => false end.
Definition inserts (rs : list (out K V)) : nat := length (List.filter is_insert rs).

Lemma exec_phi (t t' : table) o r n : good t -> automatic o -> exec_c hash eqb E t o = Ok (t', r, n) ->
  good t' /\ n + phi t' <= phi t + 6 * inserts [r] /\ (n = 0 -> stays t t').
Proof.
  intros Hg Ho Hex. pose proof (exec_forget hash eqb E t o) as Hf. rewrite Hex in Hf. cbn [forget rbind] in Hf. symmetry in Hf.
  destruct o as [k v|k v|k|k| |m|m| |]; cbn [automatic] in Ho; try contradiction; cbn [exec_c] in Hex;
    try (rewrite Hf in Hex; cbn [rbind] in Hex; injection Hex as <-); cbn [exec] in Hf.
  - destruct (emplace_c hash eqb E t k v) as [[[[t1 p] b] m]| | | |] eqn:He; cbn [rbind catch_c] in Hex; try discriminate.
    + destruct (emplace_phi t t1 k v p b m Hg He) as (H1 & H2 & H3 & H4).
      destruct (deref t1 p) as [e| | | |] eqn:Hd; cbn [rbind catch_c] in Hex; try discriminate.
      * injection Hex as <- <- <-. split; [assumption|]. split; [destruct b; cbn in *; lia|].
        intros Hz. apply kept_stays, H4, Hz.
      * exfalso. unfold deref in Hd. destruct (load _ _) as [[?|]| | | |] eqn:?; cbn in Hd; try discriminate; unfold load in *; destruct (t_slots t1 !! p); discriminate.
    + injection Hex as <- <- <-. split; [assumption|]. split; [lia|]. intros _. apply kept_stays, kept_refl.
  - unfold insert_or_assign_c in Hex.
    destruct (emplace_c hash eqb E t k v) as [[[[t1 p] b] m]| | | |] eqn:He; cbn [rbind catch_c] in Hex; try discriminate.
    + destruct (emplace_phi t t1 k v p b m Hg He) as (H1 & H2 & H3 & H4). destruct b; cbn [rbind] in Hex.
      * destruct (deref t1 p) as [e| | | |] eqn:Hd; cbn [rbind catch_c] in Hex; try discriminate.
        -- injection Hex as <- <- <-. split; [assumption|]. split; [cbn in *; lia|]. intros Hz. apply kept_stays, H4, Hz.
        -- exfalso. unfold deref in Hd. destruct (load _ _) as [[?|]| | | |] eqn:?; cbn in Hd; try discriminate; unfold load in *; destruct (t_slots t1 !! p); discriminate.
      * destruct (H3 eq_refl) as (-> & -> & e & Hs).
        assert (Ht : tinv t) by (destruct Hg as [->|]; [discriminate|assumption]).
        destruct (assign_ok hash eqb E HE HK t p e v Ht Hs) as (t2 & Has & Ht2 & Hsl & Hsz & Hcap).
        assert (Hgr : t_growth t2 = t_growth t).
        { unfold assign_at in Has. rewrite (load_some _ _ _ Hs) in Has. cbn [rbind of_option] in Has.
          destruct (store _ _ _) as [?| | | |]; cbn [rbind] in Has; try discriminate. injection Has as <-. reflexivity. }
        rewrite Has in Hex. cbn [rbind] in Hex. unfold deref in Hex.
        assert (Hs2 : t_slots t2 !! p = Some (Some (fst e, v))).
        { rewrite Hsl. apply list_lookup_insert. apply lookup_lt_Some in Hs. assumption. }
        rewrite (load_some _ _ _ Hs2) in Hex. cbn [rbind of_option catch_c] in Hex. injection Hex as <- <- <-.
        split; [right; assumption|]. split; [unfold phi; rewrite Hcap, Hgr; lia|].
        intros _. split; [assumption|]. intros j e' Hj. left. rewrite Hsl. destruct (Nat.eq_dec j p) as [->|Hne].
        -- rewrite Hs in Hj. injection Hj as <-. exists v. apply list_lookup_insert. apply lookup_lt_Some in Hs. assumption.
        -- rewrite list_lookup_insert_ne by congruence. exists (snd e'). destruct e'; assumption.
    + injection Hex as <- <- <-. split; [assumption|]. split; [lia|]. intros _. apply kept_stays, kept_refl.
  - destruct (find_key hash eqb E t k) as [[p|]| | | |]; cbn [rbind] in Hf; try discriminate.
    + destruct (deref t p); cbn [rbind] in Hf; try discriminate. injection Hf as <- <-.
      split; [assumption|]. split; [lia|]. intros _. apply kept_stays, kept_refl.
    + injection Hf as <- <-. split; [assumption|]. split; [lia|]. intros _. apply kept_stays, kept_refl.
  - destruct (erase_key hash eqb E t k) as [[e t1]| | | |] eqn:He; cbn [rbind] in Hf; try discriminate.
    injection Hf as <- <-. destruct (erase_phi t t1 k e Hg He) as (H1 & H2 & H3 & H4).
    split; [assumption|]. split; [lia|]. intros _. split; [assumption|]. intros i x Hx.
    destruct (H4 i x Hx) as [Hi|Ha]; [left|right; assumption]. exists (snd x). destruct x; assumption.
  - destruct (clear E t) as [t1| | | |] eqn:Hc; cbn [rbind] in Hf; try discriminate. injection Hf as <- <-.
    pose proof (clear_phi t t1 Hg Hc) as Hp. destruct (clear_ok hash eqb E HE HK t Hg) as (t2 & Hc1 & Hg1 & Hsz & Hnil & Hcap).
    rewrite Hc in Hc1. injection Hc1 as <-. split; [assumption|]. split; [lia|]. intros _. split; [assumption|].
    intros i x Hx. right. intros y Hy. rewrite Hnil in Hy. destruct Hy.
  - injection Hf as <- <-. split; [assumption|]. split; [lia|]. intros _. apply kept_stays, kept_refl.
  - destruct (to_list E t); cbn [rbind] in Hf; try discriminate. injection Hf as <- <-.
    split; [assumption|]. split; [lia|]. intros _. apply kept_stays, kept_refl.
Qed.

(** a call that inserts nothing does not rehash *)
Lemma exec_quiet_cost (t t' : table) o r n : good t -> exec_c hash eqb E t o = Ok (t', r, n) -> is_insert r = false -> n = 0.
Proof.
  intros Hg Hex Hr. destruct o; cbn [exec_c] in Hex;
    try (destruct (exec hash eqb E t _) as [[]| | | |]; cbn [rbind] in Hex; try discriminate; injection Hex as _ _ <-; reflexivity).
  - destruct (emplace_c hash eqb E t k v) as [[[[t1 p] b] m]| | | |] eqn:He; cbn [rbind catch_c] in Hex; try discriminate.
    + destruct (emplace_phi t t1 k v p b m Hg He) as (H1 & H2 & H3 & H4).
      destruct (deref t1 p) as [e| | | |]; cbn [rbind catch_c] in Hex; try discriminate.
      * injection Hex as <- <- <-. destruct b; [discriminate|]. apply H3. reflexivity.
      * injection Hex as <- <- <-. reflexivity.
    + injection Hex as <- <- <-. reflexivity.
  - unfold insert_or_assign_c in Hex.
    destruct (emplace_c hash eqb E t k v) as [[[[t1 p] b] m]| | | |] eqn:He; cbn [rbind catch_c] in Hex; try discriminate.
    + destruct (emplace_phi t t1 k v p b m Hg He) as (H1 & H2 & H3 & H4). destruct b; cbn [rbind] in Hex.
      * destruct (deref t1 p) as [e| | | |]; cbn [rbind catch_c] in Hex; try discriminate;
          injection Hex as <- <- <-; [discriminate|reflexivity].
      * destruct (H3 eq_refl) as (_ & -> & _).
        destruct (assign_at t1 p v) as [t2| | | |]; cbn [rbind catch_c] in Hex; try discriminate.
        -- destruct (deref t2 p) as [e| | | |]; cbn [rbind catch_c] in Hex; try discriminate; injection Hex as <- <- <-; reflexivity.
        -- injection Hex as <- <- <-. reflexivity.
    + injection Hex as <- <- <-. reflexivity.
Qed.

Lemma inserts_cons r rs : inserts (r :: rs) = inserts [r] + inserts rs.
Proof using. unfold inserts. cbn. destruct (is_insert r); reflexivity. Qed.
Lemma run_phi os : forall (t t' : table) rs n, good t -> Forall automatic os -> run_c hash eqb E t os = Ok (t', rs, n) ->
  n + phi t' <= phi t + 6 * inserts rs.
Proof.
  induction os as [|o os IH]; intros t t' rs n Hg Ho Hr; cbn [run_c] in Hr.
  - injection Hr as <- <- <-. lia.
  - inversion Ho as [|? ? Ho1 Ho2]; subst.
    destruct (exec_c hash eqb E t o) as [[[t1 r] n1]| | | |] eqn:He; cbn [rbind] in Hr; try discriminate.
    destruct (run_c hash eqb E t1 os) as [[[t2 rs2] n2]| | | |] eqn:Hr2; cbn [rbind] in Hr; try discriminate.
    injection Hr as <- <- <-. destruct (exec_phi t t1 o r n1 Hg Ho1 He) as (Hg1 & H1 & _).
    specialize (IH _ _ _ _ Hg1 Ho2 Hr2). rewrite inserts_cons. lia.
Qed.
Lemma phi_cap (t : table) : phi t <= 3 * t_cap t.
Proof using. unfold phi. pose proof (cap_le_growth E (t_cap t)). lia. Qed.
End Amort.
