(** Refinement of programs over parallel containers (used from one thread) to [SeqSpec]. *)
From stdpp Require Import list list_numbers.
From Coq Require Import Arith NArith ZArith Lia.
From Coq Require Import ZifyBool ZifyNat ZifyN.
From Verif.Common Require Import Res Word WordFacts.
From Verif.Swiss Require Import Group GroupSpec Model Probe Inv TableInv Resize Ops MapSpec History Multi MultiSpec MultiProof MultiHistory.
From Verif.Par Require Import Seq SeqSpec.
Local Open Scope nat_scope.
Local Open Scope res_scope.
Local Arguments cnt : simpl never.
Local Arguments elems : simpl never.

Section SeqProof.
Context {K V : Type} (hash : K -> N) (eqb : K -> K -> bool) (E : env) (lg : nat).
Notation W := (g_width (e_group E)).
Notation elt := (K * V)%type.
Notation table := (table K V).
Notation ptable := (list table).
Notation subidx := (subidx lg).
Notation num := (num_tables lg).

(** rehash and reserve: the part of each submap must not be 0 (C04) nor wrap around (C50) *)
Definition p_op_ok (o : op K V) : Prop :=
  match o with
  | ORehash n => op_ok (K := K) (V := V) E (ORehash (n / N.of_nat num))
  | OReserve n => (n < 2 ^ 62)%N /\ forall m, p_reserve_arg E lg n = Ok m -> no_wrap E (NormalizeCapacity (m / N.of_nat num))
  | _ => True
  end.
Definition pmop_ok (a b : nat) (o : mop K V) : Prop :=
  match o with
  | MOne i o1 => i < a /\ p_op_ok o1
  | MCopy i j | MMove i j | MSwap i j | MEq i j => i < a /\ j < a
  | MMerge i j => i < a /\ j < a /\ i <> j
  | MExtract i _ n | MInsertNode i n => i < a /\ n < b
  | MEraseIf i _ => i < a
  end.

Context (HE : env_ok E) (HK : KeyOK hash eqb).
Set Default Proof Using "HE HK".
Notation good := (good hash eqb E).
Notation tinv := (tinv hash eqb E).
Notation R := (@History.R K V hash eqb E).

Definition pe (t : table) : list elt := elems (t_slots t).
Definition pelems (ps : ptable) : list elt := flat_map pe ps.
Definition routed (ps : ptable) : Prop :=
  forall i t e, ps !! i = Some t -> In e (pe t) -> subidx (hash (fst e)) = i.
Record pgood (ps : ptable) : Prop := {
  pg_good : Forall good ps;
  pg_len : length ps = num;
  pg_routed : routed ps
}.
Definition PR (ps : ptable) (m : list elt) : Prop := pgood ps /\ pelems ps ≡ₚ m.

(** ** routing *)
Lemma num_pos : 1 <= num.
Proof using. unfold num_tables. pose proof (Nat.pow_nonzero 2 lg ltac:(lia)). lia. Qed.
Lemma num_N : N.of_nat num = (2 ^ N.of_nat lg)%N.
Proof using. unfold num_tables. rewrite Nat2N.inj_pow. reflexivity. Qed.
Lemma subidx_lt h : subidx h < num.
Proof using.
  unfold Seq.subidx, mask. set (x := N.lxor _ _).
  replace (2 ^ N.of_nat lg - 1)%N with (N.ones (N.of_nat lg)) by (rewrite N.ones_equiv, N.pred_sub; reflexivity).
  rewrite N.land_ones. pose proof (N.mod_upper_bound x (2 ^ N.of_nat lg) ltac:(apply N.pow_nonzero; lia)).
  rewrite <- num_N in *. lia.
Qed.
Lemma routed_eq ps i j t t' e e' : routed ps -> ps !! i = Some t -> ps !! j = Some t' -> In e (pe t) -> In e' (pe t') ->
  eqb (fst e) (fst e') = true -> i = j.
Proof.
  intros Hr Hi Hj He He' Hk. rewrite <- (Hr _ _ _ Hi He), <- (Hr _ _ _ Hj He'). rewrite (ko_hash _ _ HK _ _ Hk). reflexivity.
Qed.
Lemma in_pelems (ps : ptable) e : In e (pelems ps) <-> exists i t, ps !! i = Some t /\ In e (pe t).
Proof using.
  unfold pelems. rewrite in_flat_map. split.
  - intros (t & Ht & He). apply elem_of_list_In, elem_of_list_lookup in Ht. destruct Ht as [i Hi]. eauto.
  - intros (i & t & Hi & He). exists t. split; [|assumption]. apply elem_of_list_In, elem_of_list_lookup. eauto.
Qed.
(** taking one submap apart *)
Lemma pelems_focus (ps : ptable) i t : ps !! i = Some t ->
  exists rest, pelems ps ≡ₚ pe t ++ rest /\ (forall t', pelems (<[i := t']> ps) ≡ₚ pe t' ++ rest) /\
    (forall e, In e rest -> exists j t', j <> i /\ ps !! j = Some t' /\ In e (pe t')).
Proof using.
  revert i. induction ps as [|a ps IH]; intros [|i] Hi; cbn in Hi; try discriminate.
  - injection Hi as ->. exists (pelems ps). split; [reflexivity|]. split; [reflexivity|].
    intros e He. apply in_pelems in He. destruct He as (j & t' & Hj & He). exists (S j), t'. auto.
  - destruct (IH i Hi) as (rest & H1 & H2 & H3). exists (pe a ++ rest). split; [|split].
    + change (pelems (a :: ps)) with (pe a ++ pelems ps). rewrite H1, !app_assoc. f_equiv. apply Permutation_app_comm.
    + intros t'. change (pelems (<[S i := t']> (a :: ps))) with (pe a ++ pelems (<[i := t']> ps)).
      rewrite H2, !app_assoc. f_equiv. apply Permutation_app_comm.
    + intros e He. apply in_app_or in He. destruct He as [He|He].
      * exists 0, a. auto.
      * destruct (H3 e He) as (j & t' & Hj & Hl & Hin). exists (S j), t'. auto.
Qed.
Lemma focus_distinct (ps : ptable) i t k rest : routed ps -> ps !! i = Some t -> i = subidx (hash k) ->
  (forall e, In e rest -> exists j t', j <> i /\ ps !! j = Some t' /\ In e (pe t')) ->
  forall e, In e rest -> eqb k (fst e) = false.
Proof.
  intros Hr Hi -> Hrest e He. destruct (Hrest e He) as (j & t' & Hne & Hj & Hin).
  destruct (eqb k (fst e)) eqn:Hk; [|reflexivity]. exfalso. apply Hne.
  rewrite <- (Hr _ _ _ Hj Hin). rewrite (ko_hash _ _ HK _ _ Hk). reflexivity.
Qed.
Lemma distinct_app (a b : list elt) : distinct eqb a -> distinct eqb b ->
  (forall x y, In x a -> In y b -> eqb (fst x) (fst y) = false) -> distinct eqb (a ++ b).
Proof using.
  induction a as [|x a IH]; cbn; intros Ha Hb Hab; [assumption|]. destruct Ha as [Hx Ha]. split.
  - intros y Hy. apply in_app_or in Hy. destruct Hy as [Hy|Hy]; [auto|]. apply Hab; auto.
  - apply IH; auto.
Qed.
Lemma pelems_distinct_gen (ps : ptable) : Forall good ps ->
  (forall i j t t' e e', ps !! i = Some t -> ps !! j = Some t' -> In e (pe t) -> In e' (pe t') -> eqb (fst e) (fst e') = true -> i = j) ->
  distinct eqb (pelems ps).
Proof using.
  induction ps as [|a ps IH]; intros Hg Hr; [exact I|]. inversion Hg as [|? ? Ha Hg']; subst.
  change (pelems (a :: ps)) with (pe a ++ pelems ps). apply distinct_app.
  - eapply good_dist; eassumption.
  - apply IH; [assumption|]. intros i j t t' e e' H1 H2 H3 H4 H5. assert (S i = S j); [|lia].
    eapply (Hr (S i) (S j)); eassumption.
  - intros x y Hx Hy. apply in_pelems in Hy. destruct Hy as (j & t' & Hj & Hy).
    destruct (eqb (fst x) (fst y)) eqn:Hk; [|reflexivity]. exfalso. specialize (Hr 0 (S j) a t' x y eq_refl Hj Hx Hy Hk). discriminate.
Qed.
Lemma pgood_distinct ps : pgood ps -> distinct eqb (pelems ps).
Proof.
  intros [Hg _ Hr]. apply pelems_distinct_gen; [assumption|]. intros. eapply routed_eq; eassumption.
Qed.
Lemma PR_distinct ps m : PR ps m -> distinct eqb m.
Proof. intros [Hg Hp]. eapply (distinct_perm eqb (ko_sym _ _ HK)); [exact Hp|]. apply pgood_distinct. assumption. Qed.

(** ** operations on one key *)
Definition key_of (o : op K V) : option K :=
  match o with OEmplace k _ | OAssign k _ | OFind k | OErase k => Some k | _ => None end.
Lemma s_find_app (a b : list elt) k : s_find eqb (a ++ b) k = match s_find eqb a k with Some e => Some e | None => s_find eqb b k end.
Proof using. induction a as [|x a IH]; cbn; [reflexivity|]. destruct (eqb k (fst x)); auto. Qed.
Lemma frame_step (m a rest a' : list elt) o k r : key_of o = Some k -> distinct eqb m -> m ≡ₚ a ++ rest ->
  (forall e, In e rest -> eqb k (fst e) = false) -> s_step eqb a o r a' ->
  exists m', s_step eqb m o r m' /\ m' ≡ₚ a' ++ rest.
Proof.
  intros Hk Hd Hp Hrest Hst.
  assert (Hf : s_find eqb m k = s_find eqb a k).
  { rewrite (s_find_perm hash eqb HK _ _ k Hd Hp), s_find_app. rewrite (proj2 (s_find_none eqb rest k)) by assumption.
    destruct (s_find eqb a k); reflexivity. }
  destruct o as [k0 v|k0 v|k0|k0| |n|n| |]; cbn in Hk; try discriminate; injection Hk as ->; cbn [s_step] in *; rewrite Hf.
  - destruct (s_find eqb a k).
    + destruct Hst as [-> ->]. exists m. auto.
    + destruct Hst as [[-> ->]|[-> ->]]; [exists ((k, v) :: m)|exists m]; (split; [auto|]); [|assumption].
      cbn. constructor. assumption.
  - destruct (s_find eqb a k).
    + destruct Hst as [-> ->]. exists (s_update eqb m k v). split; [auto|].
      rewrite (s_update_perm eqb _ _ k v Hp). unfold s_update at 1. rewrite map_app. f_equiv; [reflexivity|].
      change (s_update eqb rest k v ≡ₚ rest). rewrite s_update_absent by assumption. reflexivity.
    + destruct Hst as [[-> ->]|[-> ->]]; [exists ((k, v) :: m)|exists m]; (split; [auto|]); [|assumption].
      cbn. constructor. assumption.
  - destruct Hst as [-> ->]. exists m. auto.
  - destruct Hst as [-> ->]. exists (s_erase eqb m k). split; [auto|].
    rewrite (s_erase_perm eqb _ _ k Hp). unfold s_erase at 1. rewrite List.filter_app. f_equiv; [reflexivity|].
    change (s_erase eqb rest k ≡ₚ rest). rewrite s_erase_absent by assumption. reflexivity.
Qed.
(** the keys of the elements of a submap after an operation *)
Lemma step_keys (a a' : list elt) o k r e : key_of o = Some k -> s_step eqb a o r a' -> In e a' ->
  (exists e0, In e0 a /\ fst e0 = fst e) \/ fst e = k.
Proof using.
  intros Hk Hst He.
  destruct o as [k0 v|k0 v|k0|k0| |n|n| |]; cbn in Hk; try discriminate; injection Hk as ->; cbn [s_step] in *.
  - destruct (s_find eqb a k).
    + destruct Hst as [_ ->]. eauto.
    + destruct Hst as [[_ ->]|[_ ->]]; [destruct He as [<-|He]|]; [right; reflexivity|eauto|eauto].
  - destruct (s_find eqb a k).
    + destruct Hst as [_ ->]. unfold s_update in He. apply in_map_iff in He. destruct He as (x & <- & Hx). left. exists x.
      split; [assumption|]. destruct (eqb k (fst x)); reflexivity.
    + destruct Hst as [[_ ->]|[_ ->]]; [destruct He as [<-|He]|]; [right; reflexivity|eauto|eauto].
  - destruct Hst as [_ ->]. eauto.
  - destruct Hst as [_ ->]. unfold s_erase in He. apply filter_In in He. destruct He. eauto.
Qed.

Lemma pgood_insert ps i t t' : pgood ps -> ps !! i = Some t -> good t' ->
  (forall e, In e (pe t') -> subidx (hash (fst e)) = i) -> pgood (<[i := t']> ps).
Proof using.
  intros [H1 H2 H3] Hi Hg Hr. split.
  - apply Forall_insert; assumption.
  - rewrite insert_length. assumption.
  - intros j t0 e Hj He. destruct (Nat.eq_dec i j) as [<-|Hne].
    + rewrite list_lookup_insert in Hj by (apply lookup_lt_Some in Hi; assumption). injection Hj as <-. auto.
    + rewrite list_lookup_insert_ne in Hj by assumption. eauto.
Qed.
Lemma pgood_at ps k : pgood ps -> exists t, ps !! subidx (hash k) = Some t /\ good t.
Proof using.
  intros [H1 H2 _]. destruct (lookup_lt_is_Some_2 ps (subidx (hash k))) as [t Ht]; [rewrite H2; apply subidx_lt|].
  exists t. split; [assumption|]. eapply Forall_lookup_1; eassumption.
Qed.
Lemma R_pe t : good t -> R t (pe t).
Proof using. intros H. split; [assumption|reflexivity]. Qed.

Lemma on_key_ok ps m o k : PR ps m -> key_of o = Some k ->
  exists ps' r m', on_key hash eqb E lg ps k o = Ok (ps', r) /\ s_step eqb m o r m' /\ PR ps' m'.
Proof.
  intros HPR Hk. pose proof HPR as [Hg Hp]. destruct (pgood_at ps k Hg) as (t & Ht & Hgt).
  unfold on_key. rewrite (load_some _ _ _ Ht). cbn [rbind].
  assert (Hok : op_ok E o) by (destruct o; try exact I; discriminate).
  destruct (exec_ok hash eqb E HE HK t (pe t) o (R_pe t Hgt) Hok) as (t' & r & a' & He & Hst & [Hgt' Hp'] & _).
  rewrite He. cbn [rbind]. destruct (pelems_focus ps _ _ Ht) as (rest & Hr1 & Hr2 & Hr3).
  destruct (frame_step m (pe t) rest a' o k r Hk (PR_distinct _ _ HPR)) as (m' & Hst' & Hm').
  - rewrite <- Hp. assumption.
  - eapply focus_distinct; [apply Hg|exact Ht|reflexivity|exact Hr3].
  - assumption.
  - exists (<[subidx (hash k) := t']> ps), r, m'. split; [reflexivity|]. split; [assumption|]. split.
    + eapply pgood_insert; [assumption|exact Ht|assumption|]. intros e Hin. unfold pe in Hin.
      apply (Permutation_in _ Hp') in Hin. destruct (step_keys _ _ _ _ _ _ Hk Hst Hin) as [(e0 & He0 & <-)|Hek].
      * eapply (pg_routed _ Hg); eassumption.
      * rewrite Hek. reflexivity.
    + rewrite Hr2. unfold pe. rewrite Hp', Hm'. reflexivity.
Qed.

(** ** whole-container operations *)
Lemma p_size_ok ps : Forall good ps -> p_size ps = length (pelems ps).
Proof using.
  unfold p_size. induction 1 as [|t ps Ht Hps IH]; [reflexivity|]. cbn.
  rewrite app_length. unfold pe at 1. rewrite <- (good_size hash eqb E t Ht), IH. reflexivity.
Qed.
Lemma p_clear_ok ps : Forall good ps -> exists ps', p_clear E ps = Ok ps' /\ Forall good ps' /\ length ps' = length ps /\ pelems ps' = [].
Proof.
  induction 1 as [|t ps Ht Hps (r & Hr & H1 & H2 & H3)]; cbn [p_clear].
  - exists []. auto.
  - destruct (exec_ok hash eqb E HE HK t (pe t) OClear (R_pe t Ht) I) as (t' & rr & a' & He & [_ ->] & [Hg Hp] & _). cbn [exec] in He.
    destruct (clear E t) as [t''| | | |]; cbn [rbind] in *; try discriminate. injection He as -> _.
    rewrite Hr. cbn [rbind]. exists (t' :: r). split; [reflexivity|]. split; [constructor; assumption|]. split; [cbn; congruence|].
    cbn. unfold pe at 1. apply Permutation_sym, Permutation_nil in Hp. rewrite Hp. assumption.
Qed.
Lemma pelems_nil_lookup (ps : ptable) i t : pelems ps = [] -> ps !! i = Some t -> pe t = [].
Proof using.
  intros Hn Hi. destruct (pe t) as [|e l] eqn:He; [reflexivity|]. assert (In e (pelems ps)); [|rewrite Hn in *; contradiction].
  apply in_pelems. exists i, t. rewrite He. cbn. auto.
Qed.
Lemma p_rehash_loop_ok nn ps : Forall good ps -> op_ok (K := K) (V := V) E (ORehash nn) ->
  exists ps' b, p_rehash_loop hash E nn ps = Ok (ps', b) /\ Forall2 (fun t t' => good t' /\ pe t' ≡ₚ pe t) ps ps'.
Proof.
  intros Hps Ho. induction Hps as [|t ps Ht Hps (ps' & b & Hr & HF)]; cbn [p_rehash_loop].
  - exists [], false. split; [reflexivity|constructor].
  - destruct (rehash_ok hash eqb E HE HK t nn Ht (proj1 Ho) (proj1 (proj2 Ho)) (proj2 (proj2 Ho))) as [[Hb _]|(t' & He & Hg' & _)].
    + rewrite Hb. exists (t :: ps), true. split; [reflexivity|]. constructor; [auto|].
      clear -Hps. induction Hps; constructor; auto.
    + rewrite He, Hr. cbn [rbind]. exists (t' :: ps'), b. split; [reflexivity|]. constructor; [|assumption].
      destruct (exec_ok hash eqb E HE HK t (pe t) (ORehash nn) (R_pe t Ht) Ho) as (t2 & r2 & a2 & He2 & [_ ->] & [Hg2 Hp2] & _).
      cbn [exec] in He2. rewrite He in He2. cbn in He2. injection He2 as <- _. auto.
Qed.
Lemma pgood_pointwise ps ps' : pgood ps -> Forall2 (fun t t' => good t' /\ pe t' ≡ₚ pe t) ps ps' -> pgood ps' /\ pelems ps' ≡ₚ pelems ps.
Proof using.
  intros [H1 H2 H3] HF. split.
  - split.
    + apply Forall_lookup. intros i t' Hi. destruct (Forall2_lookup_r _ _ _ _ _ HF Hi) as (t & _ & Hg & _). assumption.
    + rewrite <- (Forall2_length _ _ _ HF). assumption.
    + intros i t' e Hi He. destruct (Forall2_lookup_r _ _ _ _ _ HF Hi) as (t & Ht & _ & Hp).
      eapply H3; [eassumption|]. eapply Permutation_in; eassumption.
  - clear H1 H2 H3. induction HF as [|t t' ps ps' [_ Hp] _ IH]; [reflexivity|]. cbn. rewrite Hp. f_equiv. assumption.
Qed.
Lemma p_rehash_ok nn ps m : PR ps m -> op_ok (K := K) (V := V) E (ORehash nn) ->
  exists ps' b, p_rehash_loop hash E nn ps = Ok (ps', b) /\ PR ps' m.
Proof.
  intros [Hg Hp] Ho. destruct (p_rehash_loop_ok nn ps (pg_good _ Hg) Ho) as (ps' & b & Hr & HF).
  exists ps', b. split; [assumption|]. destruct (pgood_pointwise _ _ Hg HF) as [Hg' Hp']. split; [assumption|]. rewrite Hp'. assumption.
Qed.
Lemma normalize_le n : (n < 2 ^ 62)%N -> (NormalizeCapacity n <= 2 * n + 1)%N.
Proof using.
  intros Hn. destruct (N.eq_dec n 0) as [->|Hz]; [cbn; lia|].
  assert (Hp : (2 ^ 62 < 2 ^ 64)%N) by reflexivity.
  destruct (normalize_eq n Hz ltac:(lia)) as [-> _]. pose proof (N.size_le n) as Hs. lia.
Qed.
(** ** traversal *)
Definition after (ps : ptable) (i : nat) : list elt := pelems (drop (S i) ps).
Definition capafter (ps : ptable) (i : nat) : nat := total_cap (drop (S i) ps).
Definition at_slot (t : table) (j : nat) : Prop := j <= t_cap t /\ (j = t_cap t \/ exists e, t_slots t !! j = Some (Some e)).
Lemma good_begin (t : table) : good t -> exists j, begin_it E t = Ok j /\ at_slot t j /\ elems (drop j (t_slots t)) = pe t.
Proof.
  intros [->|Ht].
  - exists 0. split; [reflexivity|]. split; [split; [cbn; lia|left; reflexivity]|reflexivity].
  - destruct (begin_ok hash eqb E HE HK t Ht) as (j & H1 & H2 & H3 & H4 & _). exists j. split; [assumption|]. split; [split; assumption|]. symmetry. assumption.
Qed.
Lemma after_step (ps : ptable) i t : ps !! S i = Some t -> after ps i = pe t ++ after ps (S i) /\ capafter ps i = t_cap t + capafter ps (S i).
Proof using.
  intros Hi. unfold after, capafter. rewrite (drop_cons _ _ _ Hi). split; reflexivity.
Qed.
Lemma p_skip_mono f : forall (ps : ptable) i j r, p_skip E f ps i j = Ok r -> p_skip E (S f) ps i j = Ok r.
Proof using.
  induction f as [|f IH]; intros ps i j r H; [discriminate|]. cbn [p_skip] in H. remember (S f) as n. cbn [p_skip].
  destruct (load ps i) as [t| | | |]; cbn [rbind] in *; try discriminate.
  destruct (j =? t_cap t); [|assumption]. destruct (S i =? length ps); [assumption|].
  destruct (load ps (S i)) as [t'| | | |]; cbn [rbind] in *; try discriminate.
  destruct (begin_it E t') as [j'| | | |]; cbn [rbind] in *; try discriminate. apply IH. assumption.
Qed.
Lemma p_skip_ok f : forall (ps : ptable) i j t, Forall good ps -> ps !! i = Some t -> at_slot t j -> length ps - i <= f ->
  (p_skip E f ps i j = Ok None /\ elems (drop j (t_slots t)) ++ after ps i = []) \/
  exists i' j' t' e, p_skip E f ps i j = Ok (Some (i', j')) /\ ps !! i' = Some t' /\ t_slots t' !! j' = Some (Some e) /\ j' < t_cap t' /\
    elems (drop j (t_slots t)) ++ after ps i = elems (drop j' (t_slots t')) ++ after ps i' /\
    t_cap t' - j' + capafter ps i' <= t_cap t - j + capafter ps i.
Proof.
  induction f as [|f IH]; intros ps i j t Hps Hi Hat Hf.
  { apply lookup_lt_Some in Hi. lia. }
  cbn [p_skip]. rewrite (load_some _ _ _ Hi). cbn [rbind]. pose proof (lookup_lt_Some _ _ _ Hi) as Hlt.
  destruct (Nat.eqb_spec j (t_cap t)) as [->|Hne].
  - assert (Hend : elems (drop (t_cap t) (t_slots t)) = []).
    { pose proof (Forall_lookup_1 _ _ _ _ Hps Hi) as [->|Ht]; [reflexivity|].
      rewrite drop_ge; [reflexivity|]. rewrite (ti_slen _ _ _ _ (tv_0 _ _ _ _ Ht)). lia. }
    rewrite Hend. destruct (Nat.eqb_spec (S i) (length ps)) as [Hl|Hl].
    + left. split; [reflexivity|]. unfold after. rewrite drop_ge by lia. reflexivity.
    + destruct (lookup_lt_is_Some_2 ps (S i) ltac:(lia)) as [t1 Ht1]. rewrite (load_some _ _ _ Ht1). cbn [rbind].
      destruct (good_begin t1 (Forall_lookup_1 _ _ _ _ Hps Ht1)) as (j1 & Hj1 & Hat1 & Hel1). rewrite Hj1. cbn [rbind].
      destruct (after_step ps i t1 Ht1) as [Ha Hc]. rewrite Ha, Hc. cbn [app].
      destruct (IH ps (S i) j1 t1 Hps Ht1 Hat1 ltac:(lia)) as [[H1 H2]|(i' & j' & t' & e & H1 & H2 & H3 & H4 & H5 & H6)].
      * left. split; [assumption|]. rewrite <- Hel1. assumption.
      * right. exists i', j', t', e. rewrite <- Hel1. repeat (split; [assumption|]). lia.
  - destruct Hat as [Hle [?|(e & He)]]; [contradiction|]. right. exists i, j, t, e.
    split; [reflexivity|]. split; [assumption|]. split; [assumption|]. split; [lia|]. split; [reflexivity|lia].
Qed.
Lemma p_iterate_ok f : forall (ps : ptable) i j t, Forall good ps -> ps !! i = Some t -> at_slot t j -> t_cap t - j + capafter ps i < f ->
  exists it, p_skip E (length ps) ps i j = Ok it /\ p_iterate_from E f ps it = Ok (elems (drop j (t_slots t)) ++ after ps i).
Proof.
  induction f as [|f IH]; intros ps i j t Hps Hi Hat Hf; [lia|].
  destruct (p_skip_ok (length ps) ps i j t Hps Hi Hat ltac:(lia)) as [[H1 H2]|(i' & j' & t' & e & H1 & H2 & H3 & H4 & H5 & H6)].
  - exists None. split; [assumption|]. cbn. rewrite H2. reflexivity.
  - exists (Some (i', j')). split; [assumption|]. cbn [p_iterate_from]. unfold p_deref, p_next. cbn [fst snd].
    rewrite (load_some _ _ _ H2). cbn [rbind]. unfold deref. rewrite (load_some _ _ _ H3). cbn [rbind of_option].
    pose proof (Forall_lookup_1 _ _ _ _ Hps H2) as [->|Ht]; [discriminate|].
    destruct (next_ok hash eqb E HE HK t' j' Ht H4) as (j2 & Hj2 & Hr2 & Hs2 & He2 & _). rewrite Hj2. cbn [rbind].
    destruct (IH ps i' j2 t' Hps H2) as (it2 & Hit2 & Hrun); [split; [lia|assumption]|lia|].
    rewrite Hit2. cbn [rbind]. rewrite Hrun. cbn [rbind]. f_equal. rewrite H5, (drop_cons _ _ _ H3), elems_cons_some, He2. reflexivity.
Qed.
Lemma p_to_list_ok (ps : ptable) : Forall good ps -> 1 <= length ps -> p_to_list E ps = Ok (pelems ps).
Proof.
  intros Hps Hl. destruct (lookup_lt_is_Some_2 ps 0 Hl) as [t Ht]. unfold p_to_list, p_begin. rewrite (load_some _ _ _ Ht). cbn [rbind].
  destruct (good_begin t (Forall_lookup_1 _ _ _ _ Hps Ht)) as (j & Hj & Hat & Hel). rewrite Hj. cbn [rbind].
  destruct ps as [|a ps0]; [discriminate|]. injection Ht as ->. set (ps := t :: ps0) in *.
  destruct (p_iterate_ok (S (total_cap ps)) ps 0 j t Hps eq_refl Hat) as (it & Hit & Hrun).
  - unfold capafter. cbn. rewrite drop_0. lia.
  - rewrite Hit. cbn [rbind]. rewrite Hrun. rewrite Hel. reflexivity.
Qed.


(** ** erase_if *)
Lemma erase_at_cap (t : table) i r : erase_at E t i = Ok r -> t_cap (snd r) = t_cap t.
Proof using.
  unfold erase_at, erase_meta_only. destruct (take_slot _ _) as [[e sl]| | | |]; cbn [rbind]; try discriminate.
  cbn [t_ctrl t_cap t_size t_growth t_slots].
  destruct (load _ _) as [c| | | |]; cbn [rbind]; try discriminate. destruct (IsFull c); [|discriminate].
  destruct (window _ _ _) as [wa| | | |]; cbn [rbind]; try discriminate.
  destruct (window _ _ _) as [wb| | | |]; cbn [rbind]; try discriminate.
  destruct (set_ctrl _ _ _ _ _) as [ct| | | |]; cbn [rbind]; try discriminate.
  intros [= <-]. reflexivity.
Qed.
Lemma p_skip_insert f : forall (ps : ptable) x t t' i j, x <= i -> ps !! x = Some t -> t_cap t' = t_cap t ->
  p_skip E f (<[x := t']> ps) i j = p_skip E f ps i j.
Proof using.
  induction f as [|f IH]; intros ps x t t' i j Hx Ht Hc; [reflexivity|]. cbn [p_skip].
  assert (Hl : load (<[x := t']> ps) i = if x =? i then Ok t' else load ps i).
  { unfold load. destruct (Nat.eqb_spec x i) as [->|Hne].
    - rewrite list_lookup_insert by (apply lookup_lt_Some in Ht; assumption). reflexivity.
    - rewrite list_lookup_insert_ne by assumption. reflexivity. }
  assert (Hl2 : load (<[x := t']> ps) (S i) = load ps (S i)).
  { unfold load. rewrite list_lookup_insert_ne by lia. reflexivity. }
  rewrite Hl, Hl2, insert_length.
  assert (Hk : forall r : res table, (let* t'0 := r in let* j' := begin_it E t'0 in p_skip E f (<[x:=t']> ps) (S i) j') =
    (let* t'0 := r in let* j' := begin_it E t'0 in p_skip E f ps (S i) j')).
  { intros [t0| | | |]; cbn [rbind]; try reflexivity. destruct (begin_it E t0); cbn [rbind]; try reflexivity. apply (IH ps x t); [lia|assumption|assumption]. }
  destruct (Nat.eqb_spec x i) as [->|Hne].
  - rewrite (load_some _ _ _ Ht). cbn [rbind]. rewrite Hc, Hk. reflexivity.
  - destruct (load ps i) as [t0| | | |]; cbn [rbind]; try reflexivity. rewrite Hk. reflexivity.
Qed.
Lemma erase_inner p fi : forall (t t' : table) seen j (ps : ptable) i it F ps2 seen2,
  erase_if_loop E fi p t j = Ok (t', seen) -> ps !! i = Some t ->
  p_skip E (length ps) ps i (t_cap t) = Ok it -> p_erase_if_loop E F p (<[i := t']> ps) it = Ok (ps2, seen2) ->
  exists it0, p_skip E (length ps) ps i j = Ok it0 /\ p_erase_if_loop E (length seen + F) p ps it0 = Ok (ps2, seen ++ seen2).
Proof using.
  induction fi as [|fi IH]; intros t t' seen j ps i it F ps2 seen2 Hrun Ht Hit Hrest; [discriminate|].
  cbn [erase_if_loop] in Hrun. destruct (Nat.eqb_spec j (t_cap t)) as [->|Hne].
  - injection Hrun as <- <-. exists it. split; [assumption|]. rewrite list_insert_id in Hrest by assumption. exact Hrest.
  - destruct (deref t j) as [e| | | |] eqn:Hd; cbn [rbind] in Hrun; try discriminate.
    destruct (next_it E t j) as [j'| | | |] eqn:Hn; cbn [rbind] in Hrun; try discriminate.
    assert (Hex : exists t1, (if p e then let* (_, t') := erase_at E t j in Ok t' else Ok t) = Ok t1 /\ t_cap t1 = t_cap t /\
      (if p e then p_erase_at E ps (i, j) else Ok ps) = Ok (<[i := t1]> ps)).
    { destruct (p e).
      - destruct (erase_at E t j) as [[e' t1]| | | |] eqn:He; cbn [rbind] in Hrun |- *; try discriminate.
        exists t1. split; [reflexivity|]. split; [exact (erase_at_cap t j (e', t1) He)|].
        unfold p_erase_at. cbn [fst snd]. rewrite (load_some _ _ _ Ht). cbn [rbind]. rewrite He. reflexivity.
      - exists t. rewrite list_insert_id by assumption. auto. }
    destruct Hex as (t1 & Ht1 & Hc1 & Hp1). rewrite Ht1 in Hrun. cbn [rbind] in Hrun.
    destruct (erase_if_loop E fi p t1 j') as [[t2 sn]| | | |] eqn:Hl; cbn [rbind] in Hrun; try discriminate.
    injection Hrun as <- <-. exists (Some (i, j)). pose proof (lookup_lt_Some _ _ _ Ht) as Hlt. split.
    + destruct (length ps) as [|n] eqn:El; [lia|]. cbn [p_skip]. rewrite (load_some _ _ _ Ht). cbn [rbind].
      destruct (Nat.eqb_spec j (t_cap t)); [contradiction|reflexivity].
    + destruct (IH t1 t2 sn j' (<[i := t1]> ps) i it F ps2 seen2 Hl) as (it1 & Hit1 & Hrun1).
      * apply list_lookup_insert. assumption.
      * rewrite insert_length. rewrite (p_skip_insert _ ps i t t1 i _ ltac:(lia) Ht Hc1). rewrite Hc1. assumption.
      * rewrite list_insert_insert. assumption.
      * cbn [length Nat.add p_erase_if_loop]. unfold p_deref, p_next. cbn [fst snd]. rewrite (load_some _ _ _ Ht). cbn [rbind].
        rewrite Hd. cbn [rbind]. rewrite Hn. cbn [rbind].
        rewrite insert_length, (p_skip_insert _ ps i t t1 i _ ltac:(lia) Ht Hc1) in Hit1. rewrite Hit1. cbn [rbind].
        rewrite Hp1. cbn [rbind]. rewrite Hrun1. reflexivity.
Qed.
Definition filtered (p : elt -> bool) (t t' : table) : Prop :=
  good t' /\ t_cap t' = t_cap t /\ pe t' = List.filter (fun e => negb (p e)) (pe t).
Lemma good_erase_if p (t : table) : good t ->
  exists j t', begin_it E t = Ok j /\ erase_if_loop E (S (t_cap t)) p t j = Ok (t', pe t) /\ filtered p t t'.
Proof using HE HK.
  intros Hg. destruct (erase_if_ok hash eqb E HE HK p t Hg) as (t' & He & Hg' & Hc & Hel & _). unfold erase_if in He.
  destruct (begin_it E t) as [j| | | |]; cbn [rbind] in He; try discriminate.
  destruct (erase_if_loop E (S (t_cap t)) p t j) as [[t2 sn]| | | |] eqn:Hl; cbn [rbind] in He; try discriminate.
  injection He as -> _ ->. exists j, t'. split; [reflexivity|]. split; [exact Hl|]. split; [assumption|]. split; assumption.
Qed.
Lemma p_erase_mono p F : forall (ps : ptable) it r, p_erase_if_loop E F p ps it = Ok r -> p_erase_if_loop E (S F) p ps it = Ok r.
Proof using.
  induction F as [|F IH]; intros ps it r H; [discriminate|]. cbn [p_erase_if_loop] in H. remember (S F) as n. cbn [p_erase_if_loop].
  destruct it as [ij|]; [|assumption].
  destruct (p_deref ps ij) as [e| | | |]; cbn [rbind] in *; try discriminate.
  destruct (p_next E ps ij) as [it'| | | |]; cbn [rbind] in *; try discriminate.
  match goal with |- context [rbind ?x _] => destruct x as [ps'| | | |]; cbn [rbind] in *; try discriminate end.
  destruct (p_erase_if_loop E F p ps' it') as [r'| | | |] eqn:He; cbn [rbind] in *; try discriminate.
  rewrite (IH _ _ _ He). assumption.
Qed.
Lemma p_erase_mono' p F F' (ps : ptable) it r : F <= F' -> p_erase_if_loop E F p ps it = Ok r -> p_erase_if_loop E F' p ps it = Ok r.
Proof using. induction 1; [auto|]. intros. apply p_erase_mono. auto. Qed.
Lemma p_erase_from p n : forall (ps : ptable) i t j, n = length ps - i -> Forall good ps -> ps !! i = Some t -> begin_it E t = Ok j ->
  exists it ps', p_skip E (length ps) ps i j = Ok it /\
    p_erase_if_loop E (S (length (pelems (drop i ps)))) p ps it = Ok (ps', pelems (drop i ps)) /\
    take i ps' = take i ps /\ Forall2 (filtered p) (drop i ps) (drop i ps').
Proof using HE HK.
  induction n as [|n IH]; intros ps i t j Hn Hps Hi Hj; pose proof (lookup_lt_Some _ _ _ Hi) as Hlt; [lia|].
  destruct (good_erase_if p t (Forall_lookup_1 _ _ _ _ Hps Hi)) as (j0 & t' & Hj0 & Hrun & Hfil).
  rewrite Hj in Hj0. injection Hj0 as <-. pose proof Hfil as (Hg' & Hc' & _).
  assert (Hrest : exists it ps', p_skip E (length ps) ps i (t_cap t) = Ok it /\
    p_erase_if_loop E (S (length (pelems (drop (S i) ps)))) p (<[i := t']> ps) it = Ok (ps', pelems (drop (S i) ps)) /\
    take (S i) ps' = take (S i) (<[i := t']> ps) /\ Forall2 (filtered p) (drop (S i) ps) (drop (S i) ps')).
  { destruct (length ps) as [|L] eqn:El; [lia|]. cbn [p_skip]. rewrite (load_some _ _ _ Hi). cbn [rbind]. rewrite Nat.eqb_refl, El.
    destruct (Nat.eqb_spec (S i) (S L)) as [Hend|Hend].
    - exists None, (<[i := t']> ps). split; [reflexivity|]. rewrite drop_ge by lia. split; [reflexivity|]. split; [reflexivity|].
      rewrite drop_ge by (rewrite insert_length; lia). constructor.
    - destruct (lookup_lt_is_Some_2 ps (S i) ltac:(lia)) as [t1 Ht1]. rewrite (load_some _ _ _ Ht1). cbn [rbind].
      destruct (good_begin t1 (Forall_lookup_1 _ _ _ _ Hps Ht1)) as (j1 & Hj1 & Hat1 & _). rewrite Hj1. cbn [rbind].
      destruct (IH (<[i := t']> ps) (S i) t1 j1) as (it & ps' & H1 & H2 & H3 & H4).
      + rewrite insert_length. lia.
      + apply Forall_insert; assumption.
      + rewrite list_lookup_insert_ne by lia. assumption.
      + assumption.
      + rewrite drop_insert_gt in H2, H4 by lia. rewrite insert_length, El, (p_skip_insert _ ps i t t' (S i) _ ltac:(lia) Hi Hc') in H1.
        exists it, ps'. split; [|auto].
        destruct (p_skip_ok L ps (S i) j1 t1 Hps Ht1 Hat1 ltac:(lia)) as [[Hk _]|(i' & j' & t2 & e & Hk & _)];
          rewrite Hk; apply p_skip_mono in Hk; rewrite Hk in H1; assumption. }
  destruct Hrest as (it & ps' & H1 & H2 & H3 & H4).
  destruct (erase_inner p _ t t' _ j ps i it _ _ _ Hrun Hi H1 H2) as (it0 & Hit0 & Hrun0).
  exists it0, ps'. split; [assumption|]. rewrite (drop_cons _ _ _ Hi). change (pelems (t :: drop (S i) ps)) with (pe t ++ pelems (drop (S i) ps)).
  assert (Hi' : ps' !! i = Some t').
  { rewrite <- (lookup_take ps' (S i) i) by lia. rewrite H3, lookup_take by lia. apply list_lookup_insert. assumption. }
  split; [|split].
  - rewrite app_length. replace (S (length (pe t) + length (pelems (drop (S i) ps)))) with (length (pe t) + S (length (pelems (drop (S i) ps)))) by lia. assumption.
  - apply (f_equal (take i)) in H3. rewrite !take_take, !Nat.min_l in H3 by lia. rewrite H3. apply take_insert. lia.
  - rewrite (drop_cons _ _ _ Hi'). constructor; assumption.
Qed.
Lemma total_cap_ge (ps : ptable) : Forall good ps -> length (pelems ps) <= total_cap ps.
Proof using HE HK.
  induction 1 as [|t ps Ht _ IH]; [reflexivity|]. change (pelems (t :: ps)) with (pe t ++ pelems ps). rewrite app_length.
  pose proof (good_room hash eqb E t Ht) as [_ Hr]. rewrite (good_size hash eqb E t Ht) in Hr. unfold pe at 1. cbn. unfold total_cap in IH. lia.
Qed.
Lemma filter_length_neg {A} (p : A -> bool) (l : list A) : length l = length (List.filter p l) + length (List.filter (fun x => negb (p x)) l).
Proof using. induction l as [|x l IH]; [reflexivity|]. cbn. destruct (p x); cbn; lia. Qed.
Lemma p_erase_if_ok p ps m : PR ps m -> exists ps', p_erase_if E p ps = Ok (ps', length (List.filter p m), pelems ps) /\
  PR ps' (List.filter (fun e => negb (p e)) m) /\ pelems ps' = List.filter (fun e => negb (p e)) (pelems ps).
Proof using HE HK.
  intros [Hg Hp]. pose proof (pg_good _ Hg) as Hps. pose proof (pg_len _ Hg) as Hlen. pose proof num_pos as Hnum.
  destruct (lookup_lt_is_Some_2 ps 0 ltac:(lia)) as [t Ht]. unfold p_erase_if, p_begin. rewrite (load_some _ _ _ Ht). cbn [rbind].
  destruct (good_begin t (Forall_lookup_1 _ _ _ _ Hps Ht)) as (j & Hj & _). rewrite Hj. cbn [rbind].
  destruct (p_erase_from p (length ps - 0) ps 0 t j eq_refl Hps Ht Hj) as (it & ps' & H1 & H2 & _ & H4). rewrite !drop_0 in *.
  rewrite H1. cbn [rbind]. pose proof (total_cap_ge ps Hps) as Htc.
  rewrite (p_erase_mono' p (S (length (pelems ps))) (S (total_cap ps)) _ _ _ ltac:(lia) H2). cbn [rbind].
  assert (Hel : pelems ps' = List.filter (fun e => negb (p e)) (pelems ps)).
  { clear -H4. induction H4 as [|a a' l l' (_ & _ & Ha) _ IH]; [reflexivity|]. cbn. rewrite List.filter_app, Ha. f_equal. exact IH. }
  assert (Hps' : Forall good ps').
  { apply Forall_lookup. intros i t' Hi. destruct (Forall2_lookup_r _ _ _ _ _ H4 Hi) as (? & _ & Hgt & _). assumption. }
  exists ps'. split.
  - do 3 f_equal. rewrite !p_size_ok by assumption. rewrite Hel. pose proof (filter_length_neg p (pelems ps)) as Hfl.
    rewrite <- (Permutation_length (filter_perm p _ _ Hp)). lia.
  - split; [|exact Hel]. split; [split|].
    + assumption.
    + rewrite <- (Forall2_length _ _ _ H4). assumption.
    + intros i t' e Hi He. destruct (Forall2_lookup_r _ _ _ _ _ H4 Hi) as (t0 & Ht0 & _ & _ & Hf). rewrite Hf in He. apply filter_In in He.
      eapply (pg_routed _ Hg); [exact Ht0|apply He].
    + rewrite Hel. apply filter_perm. assumption.
Qed.

(** ** copy *)
Lemma p_copy_ok (src : ptable) : forall dst, Forall good src -> Forall good dst -> length dst = length src ->
  exists n, n <= length src /\ exists new, length new = n /\
    p_copy hash E dst src = Ok (new ++ drop n dst, negb (n =? length src)) /\
    Forall2 (fun t t' => good t' /\ pe t' ≡ₚ pe t) (take n src) new.
Proof using HE HK.
  induction src as [|s src IH]; intros [|d dst] Hs Hd Hl; try discriminate.
  - exists 0. split; [lia|]. exists []. split; [reflexivity|]. split; [reflexivity|constructor].
  - inversion Hs as [|? ? Hs1 Hs2]; subst. inversion Hd as [|? ? Hd1 Hd2]; subst. cbn [p_copy].
    destruct (copy_ok hash eqb E HE HK s Hs1) as [[Hb _]|(s' & Hc & Hg & _ & _ & Hp & _)].
    + rewrite Hb. exists 0. split; [lia|]. exists []. split; [reflexivity|]. split; [reflexivity|constructor].
    + rewrite Hc. destruct (IH dst Hs2 Hd2 ltac:(cbn in Hl; lia)) as (n & Hn & new & Hln & Hr & HF). rewrite Hr. cbn [rbind].
      exists (S n). split; [cbn; lia|]. exists (s' :: new). split; [cbn; lia|]. split; [reflexivity|]. constructor; [|assumption]. auto.
Qed.
(** ** merge *)
Lemma p_merge_ok (src : ptable) : forall dst, Forall good src -> Forall good dst -> length dst = length src ->
  exists dst' src' b mvs rss, p_merge hash eqb E dst src = Ok (dst', src', b) /\ Forall good dst' /\ Forall good src' /\
    Forall2 (fun t mr => pe t ≡ₚ fst mr ++ snd mr) src (combine mvs rss) /\
    length mvs = length src /\ length rss = length src /\
    Forall2 (fun t' tm => pe t' ≡ₚ snd tm ++ pe (fst tm)) dst' (combine dst mvs) /\
    Forall2 (fun t' r => pe t' ≡ₚ r) src' rss /\
    Forall2 (fun d mv => forall e, In e mv -> absent eqb d (fst e)) dst mvs /\
    (b = false -> Forall2 (fun d rs => forall e, In e rs -> keyin eqb (pe d) e) dst rss).
Proof using HE HK.
  induction src as [|s src IH]; intros [|d dst] Hs Hd Hl; try discriminate.
  - exists [], [], false, [], []. cbn. repeat (split; [constructor|]). intros. constructor.
  - inversion Hs as [|? ? Hs1 Hs2]; subst. inversion Hd as [|? ? Hd1 Hd2]; subst. cbn [p_merge].
    destruct (merge_ok hash eqb E HE HK d s Hd1 Hs1) as (d' & s' & b & mv & rs & Hm & Hgi & Hgj & P1 & P2 & P3 & P4 & P5).
    rewrite Hm. cbn [rbind]. destruct b.
    + exists (d' :: dst), (s' :: src), true, (mv :: map (fun _ => []) src), (rs :: map pe src). split; [reflexivity|].
      split; [constructor; assumption|]. split; [constructor; assumption|].
      split; [cbn; constructor; [assumption|clear; induction src; cbn; constructor; [reflexivity|assumption]]|].
      split; [cbn; rewrite map_length; reflexivity|]. split; [cbn; rewrite map_length; reflexivity|].
      assert (Hl' : length dst = length src) by (cbn in Hl; lia). clear -P2 P3 P4 Hl'.
      split; [|split; [|split]].
      * cbn. constructor; [assumption|]. clear -Hl'. revert src Hl'. induction dst as [|a dst IH]; intros [|c src] Hl; try discriminate; cbn; constructor; [reflexivity|]. apply IH. cbn in Hl. lia.
      * constructor; [assumption|]. clear. induction src; cbn; constructor; [reflexivity|assumption].
      * constructor; [assumption|]. clear -Hl'. revert src Hl'. induction dst as [|a dst IH]; intros [|c src] Hl; try discriminate; cbn; constructor; [intros e []|]. apply IH. cbn in Hl. lia.
      * discriminate.
    + destruct (IH dst Hs2 Hd2 ltac:(cbn in Hl; lia)) as (dst' & src' & b & mvs & rss & Hr & Q1 & Q2 & Q3 & Q4 & Q5 & Q6 & Q7 & Q8 & Q9).
      rewrite Hr. cbn [rbind]. exists (d' :: dst'), (s' :: src'), b, (mv :: mvs), (rs :: rss). split; [reflexivity|].
      split; [constructor; assumption|]. split; [constructor; assumption|]. cbn [combine length].
      split; [constructor; assumption|]. split; [congruence|]. split; [congruence|].
      split; [constructor; assumption|]. split; [constructor; assumption|]. split; [constructor; assumption|].
      intros ->. constructor; [exact (P5 eq_refl)|auto].
Qed.
Context (Hlg : lg <= 12).
Lemma reserve_part n : (n < 2 ^ 62)%N -> exists m, p_reserve_arg E lg n = Ok m /\ (m / N.of_nat num <> 0)%N /\ (m / N.of_nat num < 2 ^ 64)%N.
Proof using Hlg.
  intros Hn. assert (H62 : (2 ^ 64 = 4 * 2 ^ 62)%N) by reflexivity.
  assert (Hnum : (1 <= N.of_nat num <= 2 ^ 12)%N).
  { rewrite num_N. pose proof (N.pow_nonzero 2 (N.of_nat lg) ltac:(lia)). split; [lia|]. apply N.pow_le_mono_r; lia. }
  assert (H12 : (2 ^ 12 < 2 ^ 62)%N) by reflexivity.
  unfold p_reserve_arg.
  assert (Ht : exists tg, GrowthToLowerboundCapacity W n = Ok tg /\ (tg < 2 ^ 64)%N).
  { unfold GrowthToLowerboundCapacity. destruct (_ && _); [eexists; split; [reflexivity|lia]|].
    assert (H63 : (2 ^ 63 = 2 * 2 ^ 62)%N) by reflexivity.
    destruct (N.ltb_spec n (2 ^ 63)) as [_|Hbad]; [|exfalso; lia].
    destruct (Z.eqb_spec (Z.of_N n) (- 2 ^ 63)) as [Hz|Hz]; [exfalso; lia|].
    eexists. split; [reflexivity|]. pose proof (Z.mod_pos_bound (Z.of_N n + Z.quot (Z.of_N n - 1) 7) (2 ^ 64) ltac:(lia)). lia. }
  destruct Ht as (tg & -> & Htg). cbn [rbind].
  set (q := (n / N.of_nat num)%N).
  assert (Hq : (N.of_nat num * q <= n)%N) by (apply N.mul_div_le; lia).
  assert (Hql : (q <= n)%N) by nia.
  pose proof (normalize_le q ltac:(lia)) as Hnl. destruct (normalize_ge q ltac:(lia)) as [_ Hn1].
  set (c := NormalizeCapacity q) in *.
  assert (Hnw : (N.of_nat num * c < 2 ^ 64)%N) by nia.
  assert (Hmul : wmul 64 (N.of_nat num) c = (N.of_nat num * c)%N) by (unfold wmul, wmod; apply N.mod_small; assumption).
  rewrite Hmul. set (nz := (N.of_nat num * c)%N) in *.
  assert (Hge : (nz <= (if (tg <? nz)%N then nz else tg))%N) by (destruct (N.ltb_spec tg nz); lia).
  assert (Hlt : ((if (tg <? nz)%N then nz else tg) < 2 ^ 64)%N) by (destruct (N.ltb_spec tg nz); lia).
  eexists. split; [reflexivity|]. set (m := (if (tg <? nz)%N then nz else tg)) in *. split.
  - intros Hm. apply N.div_small_iff in Hm; [|lia]. unfold nz in Hge. nia.
  - apply N.le_lt_trans with m; [|assumption]. apply N.div_le_upper_bound; [lia|]. nia.
Qed.

Lemma p_exec_ok ps m o : PR ps m -> p_op_ok o ->
  exists ps' r m', p_exec hash eqb E lg ps o = Ok (ps', r) /\ s_step eqb m o r m' /\ PR ps' m'.
Proof using HE HK Hlg.
  intros HPR Ho. pose proof HPR as [Hg Hp]. destruct o as [k v|k v|k|k| |n|n| |]; cbn [p_exec]; try (apply on_key_ok; [assumption|reflexivity]).
  - destruct (p_clear_ok ps (pg_good _ Hg)) as (ps' & He & Hg' & Hl & Hn). rewrite He. cbn [rbind].
    exists ps', RUnit, []. split; [reflexivity|]. split; [split; reflexivity|]. split; [|rewrite Hn; reflexivity].
    split; [assumption|rewrite Hl; apply Hg|]. intros i t e Hi Hin. rewrite (pelems_nil_lookup _ _ _ Hn Hi) in Hin. destruct Hin.
  - unfold p_rehash. destruct (p_rehash_ok _ ps m HPR Ho) as (ps' & b & He & HPR'). rewrite He. cbn [rbind].
    exists ps', (threw b), m. split; [reflexivity|]. split; [|assumption]. cbn. split; [destruct b; auto|reflexivity].
  - destruct Ho as [Hn Hnw]. destruct (reserve_part n Hn) as (q & Hq & Hq0 & Hq1). unfold p_reserve. rewrite Hq. cbn [rbind]. unfold p_rehash.
    destruct (p_rehash_ok (q / N.of_nat num) ps m HPR) as (ps' & b & He & HPR'); [cbn; auto|]. rewrite He. cbn [rbind].
    exists ps', (threw b), m. split; [reflexivity|]. split; [|assumption]. cbn. split; [destruct b; auto|reflexivity].
  - exists ps, (RSize (p_size ps)), m. split; [reflexivity|]. split; [|assumption]. split; [|reflexivity].
    rewrite (p_size_ok ps (pg_good _ Hg)). f_equal. apply Permutation_length. assumption.
  - rewrite (p_to_list_ok ps (pg_good _ Hg)); [|rewrite (pg_len _ Hg); apply num_pos]. cbn [rbind].
    exists ps, (RElems (pelems ps)), m. split; [reflexivity|]. split; [|assumption]. split; [|reflexivity]. eauto.
Qed.

(** ** == *)
Context (eeq : K * V -> K * V -> bool) (HQ : EltOK eqb eeq).
Lemma p_eq_ok (a : ptable) : forall b, Forall good a -> Forall good b -> length a = length b ->
  exists r, p_eq hash eeq E a b = Ok r /\ (r = true <-> Forall2 (fun x y => same_assocs eeq (pe x) (pe y)) a b).
Proof using HE HK HQ Hlg.
  induction a as [|x a IH]; intros [|y b] Ha Hb Hl; try discriminate; cbn [p_eq].
  - exists true. split; [reflexivity|]. split; [constructor|reflexivity].
  - inversion Ha as [|? ? Ha1 Ha2]; subst. inversion Hb as [|? ? Hb1 Hb2]; subst.
    destruct (table_eq_ok hash eqb E HE HK eeq HQ x y Ha1 Hb1) as (r & Hr & Hiff). rewrite Hr. cbn [rbind]. destruct r.
    + destruct (IH b Ha2 Hb2 ltac:(cbn in Hl; lia)) as (r' & Hr' & Hiff'). exists r'. split; [assumption|]. rewrite Hiff'. split.
      * intros HF. constructor; [apply Hiff; reflexivity|assumption].
      * intros HF. inversion HF; subst. assumption.
    + exists false. split; [reflexivity|]. split; [discriminate|]. intros HF. inversion HF as [|? ? ? ? Hs]; subst. apply Hiff in Hs. discriminate.
Qed.

(** ** programs over several containers *)
Set Default Proof Using "HE HK HQ Hlg".
Lemma pelems_app (a b : ptable) : pelems (a ++ b) = pelems a ++ pelems b.
Proof using. unfold pelems. apply flat_map_app. Qed.
Definition before (n : nat) (k : K) : bool := subidx (hash k) <? n.
Lemma before_split (ps : ptable) n : routed ps ->
  List.filter (fun e => before n (fst e)) (pelems ps) = pelems (take n ps) /\
  List.filter (fun e => negb (before n (fst e))) (pelems ps) = pelems (drop n ps).
Proof using Hlg.
  intros Hr. rewrite <- (take_drop n ps) at 1 3. rewrite pelems_app, !List.filter_app.
  assert (H1 : forall e, In e (pelems (take n ps)) -> before n (fst e) = true).
  { intros e He. apply in_pelems in He. destruct He as (i & t & Hi & He). apply lookup_take_Some in Hi. destruct Hi as [Hi Hlt].
    unfold before. rewrite (Hr _ _ _ Hi He). apply Nat.ltb_lt. assumption. }
  assert (H2 : forall e, In e (pelems (drop n ps)) -> before n (fst e) = false).
  { intros e He. apply in_pelems in He. destruct He as (i & t & Hi & He). rewrite lookup_drop in Hi.
    unfold before. rewrite (Hr _ _ _ Hi He). apply Nat.ltb_ge. lia. }
  split.
  - rewrite filter_all, filter_none, app_nil_r by assumption. reflexivity.
  - rewrite filter_none, filter_all; [reflexivity| |].
    + intros e He. rewrite (H2 e He). reflexivity.
    + intros e He. rewrite (H1 e He). reflexivity.
Qed.
Lemma plook (cs : list ptable) ms i : Forall2 PR cs ms -> i < length cs ->
  exists c, cs !! i = Some c /\ PR c (mget ms i) /\ i < length ms.
Proof using.
  intros HF Hi. destruct (lookup_lt_is_Some_2 cs i Hi) as [c Hc].
  destruct (Forall2_lookup_l _ _ _ _ _ HF Hc) as (m & Hm & HR).
  exists c. split; [assumption|]. split; [|apply lookup_lt_Some in Hm; assumption].
  unfold mget. rewrite (nth_lookup_Some _ _ _ _ Hm). assumption.
Qed.
Lemma PR_perm ps m m' : PR ps m -> m ≡ₚ m' -> PR ps m'.
Proof using. intros [H1 H2] H. split; [assumption|]. rewrite H2. assumption. Qed.
Lemma PR_find ps m k t : PR ps m -> ps !! subidx (hash k) = Some t -> s_find eqb m k = s_find eqb (pe t) k.
Proof.
  intros HPR Ht. pose proof HPR as [Hg Hp]. destruct (pelems_focus ps _ _ Ht) as (rest & H1 & _ & H3).
  rewrite (s_find_perm hash eqb HK m (pe t ++ rest) k); [|eapply PR_distinct; eassumption|rewrite <- Hp; assumption].
  rewrite s_find_app. rewrite (proj2 (s_find_none eqb rest k)); [destruct (s_find eqb (pe t) k); reflexivity|].
  eapply focus_distinct; [apply Hg|exact Ht|reflexivity|exact H3].
Qed.
Lemma replicate_PR n : n = num -> PR (replicate n empty_table) [].
Proof using.
  intros Hn. split; [split|].
  - apply Forall_replicate. left. reflexivity.
  - rewrite replicate_length. assumption.
  - intros i t e Hi He. apply lookup_replicate in Hi. destruct Hi as [-> _]. destruct He.
  - clear Hn. induction n; cbn; [reflexivity|assumption].
Qed.

Lemma pm_copy_ok d s md msrc : PR d md -> PR s msrc ->
  exists d' b, p_copy hash E d s = Ok (d', b) /\
    if b then exists c : K -> bool, (forall k k', eqb k k' = true -> c k = c k') /\
           PR d' (List.filter (fun e => c (fst e)) msrc ++ List.filter (fun e => negb (c (fst e))) md)
    else PR d' msrc.
Proof.
  intros [Hgd Hpd] [Hgs Hps].
  destruct (p_copy_ok s d (pg_good _ Hgs) (pg_good _ Hgd)) as (n & Hn & new & Hln & Hr & HF); [rewrite (pg_len _ Hgs); apply Hgd|].
  exists (new ++ drop n d), (negb (n =? length s)). split; [assumption|].
  assert (Hnew : pelems new ≡ₚ pelems (take n s)).
  { clear -HF. induction HF as [|a a' l l' [_ Ha] _ IH]; [reflexivity|]. cbn. rewrite Ha. f_equiv. exact IH. }
  assert (Hld : length d = length s) by (rewrite (pg_len _ Hgs); apply Hgd).
  assert (Hgood : pgood (new ++ drop n d)).
  { split.
    - apply Forall_app. split; [|apply Forall_drop, Hgd]. apply Forall_lookup. intros i t' Hi.
      destruct (Forall2_lookup_r _ _ _ _ _ HF Hi) as (t & _ & Hgt & _). assumption.
    - rewrite app_length, drop_length, Hln. rewrite <- (pg_len _ Hgd). lia.
    - intros i t e Hi He. apply lookup_app_Some in Hi. destruct Hi as [Hi|[Hge Hi]].
      + destruct (Forall2_lookup_r _ _ _ _ _ HF Hi) as (t0 & Ht0 & _ & Hp). apply lookup_take_Some in Ht0. destruct Ht0 as [Ht0 _].
        eapply (pg_routed _ Hgs); [exact Ht0|]. eapply Permutation_in; eassumption.
      + rewrite lookup_drop in Hi. replace (n + (i - length new)) with i in Hi by lia. eapply (pg_routed _ Hgd); eassumption. }
  destruct (Nat.eqb_spec n (length s)) as [->|Hne]; cbn [negb].
  - split; [assumption|]. rewrite pelems_app, drop_ge, app_nil_r by lia. rewrite Hnew, take_ge by lia. assumption.
  - exists (before n). split; [intros k k' Hk; unfold before; rewrite (ko_hash _ _ HK _ _ Hk); reflexivity|].
    split; [assumption|]. rewrite pelems_app, Hnew.
    destruct (before_split s n (pg_routed _ Hgs)) as [Hb1 _]. destruct (before_split d n (pg_routed _ Hgd)) as [_ Hb2].
    rewrite <- Hb1, <- Hb2. f_equiv; apply filter_perm; assumption.
Qed.

Lemma pm_merge_ok d s md msrc : PR d md -> PR s msrc ->
  exists d' s' b mv rs, p_merge hash eqb E d s = Ok (d', s', b) /\ PR d' (mv ++ md) /\ PR s' rs /\ msrc ≡ₚ mv ++ rs /\
    (forall e, In e mv -> has_key eqb md e = false) /\ (b = false -> forall e, In e rs -> has_key eqb md e = true).
Proof.
  intros HPd HPs. pose proof HPd as [Hgd Hpd]. pose proof HPs as [Hgs Hps].
  destruct (p_merge_ok s d (pg_good _ Hgs) (pg_good _ Hgd)) as (d' & s' & b & mvs & rss & Hr & Q1 & Q2 & Q3 & Q4 & Q5 & Q6 & Q7 & Q8 & Q9);
    [rewrite (pg_len _ Hgs); apply Hgd|].
  assert (Hld : length d = length s) by (rewrite (pg_len _ Hgs); apply Hgd).
  exists d', s', b, (concat mvs), (concat rss). split; [assumption|].
  assert (Hls' : length s' = length s) by (rewrite (Forall2_length _ _ _ Q7); assumption).
  assert (Hld' : length d' = length d) by (rewrite (Forall2_length _ _ _ Q6), combine_length; lia).
  (* which submap of [s] an element comes from *)
  assert (Hsrc : forall x mv rs, mvs !! x = Some mv -> rss !! x = Some rs -> forall e, In e (mv ++ rs) -> subidx (hash (fst e)) = x).
  { intros x mv rs Hmv Hrs e He.
    assert (Hc : combine mvs rss !! x = Some (mv, rs)) by (clear -Hmv Hrs; revert x rss Hmv Hrs; induction mvs as [|a mvs IH]; intros [|x] [|r rss] H1 H2; cbn in *; try discriminate; [congruence|eauto]).
    destruct (Forall2_lookup_r _ _ _ _ _ Q3 Hc) as (t & Ht & Hp). cbn [fst snd] in Hp.
    eapply (pg_routed _ Hgs); [exact Ht|]. eapply Permutation_in; [symmetry; exact Hp|exact He]. }
  assert (Hmv : forall x mv, mvs !! x = Some mv -> forall e, In e mv -> subidx (hash (fst e)) = x).
  { intros x mv Hx e He. destruct (lookup_lt_is_Some_2 rss x) as [rs Hrs]; [apply lookup_lt_Some in Hx; lia|].
    eapply Hsrc; [exact Hx|exact Hrs|]. apply in_or_app. auto. }
  assert (Hrs : forall x rs, rss !! x = Some rs -> forall e, In e rs -> subidx (hash (fst e)) = x).
  { intros x rs Hx e He. destruct (lookup_lt_is_Some_2 mvs x) as [mv Hm]; [apply lookup_lt_Some in Hx; lia|].
    eapply Hsrc; [exact Hm|exact Hx|]. apply in_or_app. auto. }
  assert (Hin : forall (ls : list (list elt)) e, In e (concat ls) -> exists x l, ls !! x = Some l /\ In e l).
  { intros ls e He. apply in_concat in He. destruct He as (l & Hl & He). apply elem_of_list_In, elem_of_list_lookup in Hl. destruct Hl as [x Hx]. eauto. }
  split; [|split; [|split; [|split]]].
  - split.
    + split; [assumption|rewrite Hld'; apply Hgd|]. intros x t e Hx He.
      destruct (Forall2_lookup_l _ _ _ _ _ Q6 Hx) as ([t0 mv] & Hc & Hp). cbn [fst snd] in Hp.
      assert (Hc2 : d !! x = Some t0 /\ mvs !! x = Some mv).
      { clear -Hc. revert x mvs Hc. induction d as [|a d IH]; intros [|x] [|m mvs] H; cbn in *; try discriminate; [injection H as -> ->; auto|auto]. }
      destruct Hc2 as [Ht0 Hm]. apply (Permutation_in _ Hp) in He. apply in_app_or in He. destruct He as [He|He]; [eauto|].
      eapply (pg_routed _ Hgd); eassumption.
    + rewrite <- Hpd. clear -Q6 Q4 Hld. revert d' mvs Q6 Q4. revert s Hld.
      induction d as [|a d IH]; intros [|c s] Hl d' [|m mvs] HF Hlm; try discriminate; cbn in HF.
      * inversion HF; subst. reflexivity.
      * inversion HF as [|t' ? ? ? Hp HF']; subst. cbn [fst snd] in Hp. change (pelems (t' :: l)) with (pe t' ++ pelems l).
        change (pelems (a :: d)) with (pe a ++ pelems d). cbn [concat]. rewrite Hp, (IH s ltac:(cbn in Hl; lia) l mvs HF' ltac:(cbn in Hlm; lia)).
        rewrite <- !app_assoc. f_equiv. rewrite !app_assoc. f_equiv. apply Permutation_app_comm.
  - split.
    + split; [assumption|rewrite Hls'; apply Hgs|]. intros x t e Hx He.
      destruct (Forall2_lookup_l _ _ _ _ _ Q7 Hx) as (rs & Hrx & Hp). apply (Permutation_in _ Hp) in He. eauto.
    + clear -Q7. induction Q7 as [|t r l l' Hp _ IH]; [reflexivity|]. cbn. rewrite Hp. f_equiv. exact IH.
  - rewrite <- Hps. clear -Q3 Q4 Q5. revert mvs rss Q3 Q4 Q5. induction s as [|a s IH]; intros [|m mvs] [|r rss] HF H1 H2; try discriminate; cbn in HF.
    + reflexivity.
    + inversion HF as [|? ? ? ? Hp HF']; subst. cbn [fst snd] in Hp. change (pelems (a :: s)) with (pe a ++ pelems s). cbn [concat].
      rewrite Hp, (IH mvs rss HF' ltac:(cbn in H1; lia) ltac:(cbn in H2; lia)). rewrite <- !app_assoc. f_equiv. rewrite !app_assoc. f_equiv. apply Permutation_app_comm.
  - intros e He. destruct (Hin _ _ He) as (x & mv & Hx & Hem). destruct (Forall2_lookup_r _ _ _ _ _ Q8 Hx) as (t & Ht & Hab).
    pose proof (Hmv _ _ Hx _ Hem) as Hidx. unfold has_key. rewrite <- Hidx in Ht. rewrite (PR_find d md (fst e) t HPd Ht).
    rewrite (proj2 (s_find_none eqb (pe t) (fst e))); [reflexivity|]. intros y Hy. exact (Hab e Hem y Hy).
  - intros Hb e He. destruct (Hin _ _ He) as (x & rs & Hx & Hem). destruct (Forall2_lookup_r _ _ _ _ _ (Q9 Hb) Hx) as (t & Ht & Hki).
    pose proof (Hrs _ _ Hx _ Hem) as Hidx. unfold has_key. rewrite <- Hidx in Ht. rewrite (PR_find d md (fst e) t HPd Ht).
    destruct (Hki e Hem) as (y & Hy & Hk). destruct (s_find eqb (pe t) (fst e)) eqn:Hf; [reflexivity|].
    rewrite s_find_none in Hf. rewrite (Hf y Hy) in Hk. discriminate.
Qed.

Lemma pm_eq_ok a b ma mb : PR a ma -> PR b mb ->
  exists r, p_eq hash eeq E a b = Ok r /\ (r = true <-> same_assocs eeq ma mb).
Proof.
  intros [Hga Hpa] [Hgb Hpb]. assert (Hl : length a = length b) by (rewrite (pg_len _ Hga); symmetry; apply Hgb).
  destruct (p_eq_ok a b (pg_good _ Hga) (pg_good _ Hgb) Hl) as (r & Hr & Hiff). exists r. split; [assumption|]. rewrite Hiff.
  rewrite <- (same_assocs_perm eeq _ _ _ _ Hpa Hpb). unfold same_assocs.
  assert (Hone : forall (c d : ptable), pgood c -> pgood d -> length c = length d ->
    (forall i x y, c !! i = Some x -> d !! i = Some y -> forall e, (exists z, In z (pe x) /\ eeq z e = true) -> exists z, In z (pe y) /\ eeq z e = true) <->
    (forall e, (exists z, In z (pelems c) /\ eeq z e = true) -> exists z, In z (pelems d) /\ eeq z e = true)).
  { intros c d Hc Hd Hlcd. split.
    - intros H e (z & Hz & He). apply in_pelems in Hz. destruct Hz as (i & x & Hx & Hz).
      destruct (lookup_lt_is_Some_2 d i) as [y Hy]; [apply lookup_lt_Some in Hx; lia|].
      destruct (H i x y Hx Hy e) as (w & Hw & Hwe); [eauto|]. exists w. split; [|assumption]. apply in_pelems. eauto.
    - intros H i x y Hx Hy e (z & Hz & He). destruct (H e) as (w & Hw & Hwe); [exists z; split; [apply in_pelems; eauto|assumption]|].
      apply in_pelems in Hw. destruct Hw as (j & y' & Hy' & Hw). exists w. split; [|assumption].
      assert (i = j); [|subst; congruence].
      rewrite <- (pg_routed _ Hc _ _ _ Hx Hz), <- (pg_routed _ Hd _ _ _ Hy' Hw).
      rewrite (ko_hash _ _ HK (fst z) (fst e)), (ko_hash _ _ HK (fst w) (fst e)); [reflexivity| |]; eapply eo_key; eassumption. }
  split.
  - intros HF e. split.
    + revert e. apply (Hone a b Hga Hgb Hl). intros i x y Hx Hy e. apply (Forall2_lookup_lr _ _ _ _ _ _ HF Hx Hy).
    + revert e. apply (Hone b a Hgb Hga (eq_sym Hl)). intros i x y Hx Hy e. apply (Forall2_lookup_lr _ _ _ _ _ _ HF Hy Hx).
  - intros H. apply Forall2_same_length_lookup_2; [assumption|]. intros i x y Hx Hy e. split.
    + revert e. eapply (proj2 (Hone a b Hga Hgb Hl)); [|exact Hx|exact Hy]. intros e. apply H.
    + revert e. eapply (proj2 (Hone b a Hgb Hga (eq_sym Hl))); [|exact Hy|exact Hx]. intros e. apply H.
Qed.

Lemma pm_extract_ok c m k : PR c m -> exists c', p_extract hash eqb E lg c k = Ok (s_find eqb m k, c') /\ PR c' (s_erase eqb m k).
Proof.
  intros HPR. destruct (on_key_ok c m (OErase k) k HPR eq_refl) as (c' & r & m' & He & [-> ->] & HPR').
  unfold on_key in He. unfold p_extract. destruct (load c (subidx (hash k))) as [t| | | |]; cbn [rbind] in *; try discriminate.
  cbn [exec] in He. destruct (erase_key hash eqb E t k) as [[e t']| | | |]; cbn [rbind] in *; try discriminate.
  injection He as <- ->. eauto.
Qed.
Lemma pm_insert_ok c m e : PR c m ->
  if has_key eqb m e then p_insert_node hash eqb E lg c (Some e) = Ok (c, Some e, false)
  else p_insert_node hash eqb E lg c (Some e) = BadAlloc \/
       exists c', p_insert_node hash eqb E lg c (Some e) = Ok (c', None, true) /\ PR c' (e :: m).
Proof.
  intros HPR. pose proof HPR as [Hg Hp]. destruct (pgood_at c (fst e) Hg) as (t & Ht & Hgt).
  unfold has_key. rewrite (PR_find c m (fst e) t HPR Ht). unfold p_insert_node. rewrite (load_some _ _ _ Ht). cbn [rbind]. unfold insert_node.
  destruct (present_or_absent eqb t (fst e)) as [(q & y & Hy & Hk)|Ha].
  - rewrite (R_present hash eqb E HE HK _ _ _ _ _ (R_pe t Hgt) Hy Hk).
    rewrite (emplace_old hash eqb E HE HK t _ (snd e) q y Hgt Hy Hk). cbn [rbind]. rewrite list_insert_id by assumption. reflexivity.
  - rewrite (R_absent hash eqb E HE HK _ _ _ (R_pe t Hgt) Ha).
    destruct (emplace_new hash eqb E HE HK t (fst e) (snd e) Hgt Ha) as [(Hb & _)|(t1 & q & Hem & Ht1 & Hsl1 & Hsz1 & Hp1 & _)].
    + rewrite Hb. auto.
    + right. rewrite Hem. cbn [rbind]. eexists. split; [reflexivity|]. rewrite <- surjective_pairing in Hp1.
      destruct (pelems_focus c _ _ Ht) as (rest & H1 & H2 & _). split.
      * eapply pgood_insert; [assumption|exact Ht|right; assumption|]. intros x Hx. unfold pe in Hx. apply (Permutation_in _ Hp1) in Hx.
        destruct Hx as [<-|Hx]; [reflexivity|]. eapply (pg_routed _ Hg); eassumption.
      * rewrite H2. unfold pe at 1. rewrite Hp1. cbn. constructor. rewrite <- Hp. symmetry. assumption.
Qed.

Lemma pm_exec_ok (cs : list ptable) ns ms o : Forall2 PR cs ms -> pmop_ok (length cs) (length ns) o ->
  exists cs' ns' r ms', pm_exec hash eqb eeq E lg cs ns o = Ok (cs', ns', r) /\ p_mstep eqb eeq (ms, ns) o r (ms', ns') /\
    Forall2 PR cs' ms' /\ length cs' = length cs /\ length ns' = length ns.
Proof.
  intros HF Ho. destruct o as [i o1|i j|i j|i j|i j|i k n|i n|i j|i p]; cbn [pmop_ok pm_exec] in *.
  - destruct Ho as [Hi Ho]. destruct (plook _ _ _ HF Hi) as (c & Hc & HR & Him). rewrite (load_some _ _ _ Hc). cbn [rbind].
    destruct (p_exec_ok c _ o1 HR Ho) as (c' & r & m' & He & Hst & HR'). rewrite He. cbn [rbind].
    exists (<[i := c']> cs), ns, (MR r), (upd ms i m'). split; [reflexivity|]. split; [left; cbn; eauto|]. rewrite upd_insert.
    split; [apply Forall2_insert; assumption|]. split; [apply insert_length|reflexivity].
  - destruct Ho as [Hi Hj]. destruct (plook _ _ _ HF Hi) as (ci & Hci & HRi & Him). destruct (plook _ _ _ HF Hj) as (cj & Hcj & HRj & Hjm).
    rewrite (load_some _ _ _ Hci), (load_some _ _ _ Hcj). cbn [rbind].
    destruct (pm_copy_ok ci cj _ _ HRi HRj) as (d' & b & Hr & Hb). rewrite Hr. cbn [rbind]. destruct b.
    + destruct Hb as (c & Hc & HR'). eexists _, ns, _, _. split; [reflexivity|].
      split; [right; cbn; split; [reflexivity|]; exists c; split; [assumption|reflexivity]|]. rewrite upd_insert.
      split; [apply Forall2_insert; assumption|]. split; [apply insert_length|reflexivity].
    + eexists _, ns, _, _. split; [reflexivity|]. split; [left; cbn; left; split; reflexivity|]. rewrite upd_insert.
      split; [apply Forall2_insert; assumption|]. split; [apply insert_length|reflexivity].
  - destruct Ho as [Hi Hj]. destruct (plook _ _ _ HF Hi) as (ci & Hci & HRi & Him). destruct (plook _ _ _ HF Hj) as (cj & Hcj & HRj & Hjm).
    rewrite (load_some _ _ _ Hci), (load_some _ _ _ Hcj). cbn [rbind p_move_out].
    replace (map (fun t : table => fst (move_out t)) cj) with cj by (symmetry; apply map_id).
    assert (Hemp : PR (map (fun t : table => snd (move_out t)) cj) []).
    { replace (map (fun t : table => snd (move_out t)) cj) with (replicate (length cj) (empty_table (K := K) (V := V))) by (clear; induction cj; cbn; [reflexivity|f_equal; assumption]).
      apply replicate_PR. apply HRj. }
    eexists _, ns, MDone, (if i =? j then ms else upd (upd ms i (mget ms j)) j []). split; [reflexivity|].
    destruct (Nat.eqb_spec i j) as [->|Hne].
    + split; [left; cbn; rewrite Nat.eqb_refl; auto|]. rewrite list_insert_insert. rewrite list_insert_id by assumption. auto.
    + split; [left; cbn; rewrite (proj2 (Nat.eqb_neq i j) Hne); auto|]. rewrite !upd_insert. rewrite list_insert_commute by assumption.
      split; [|rewrite !insert_length; auto]. apply Forall2_insert; [apply Forall2_insert; assumption|]. assumption.
  - destruct Ho as [Hi Hj]. destruct (plook _ _ _ HF Hi) as (ci & Hci & HRi & Him). destruct (plook _ _ _ HF Hj) as (cj & Hcj & HRj & Hjm).
    rewrite (load_some _ _ _ Hci), (load_some _ _ _ Hcj). cbn [rbind p_swap].
    eexists _, ns, MDone, (upd (upd ms i (mget ms j)) j (mget ms i)). split; [reflexivity|]. split; [left; cbn; auto|].
    rewrite !upd_insert. split; [|rewrite !insert_length; auto]. destruct (Nat.eq_dec i j) as [->|Hne].
    + rewrite Hcj in Hci. injection Hci as <-. apply Forall2_insert; [apply Forall2_insert; assumption|assumption].
    + rewrite list_insert_commute by assumption. apply Forall2_insert; [apply Forall2_insert; assumption|assumption].
  - destruct Ho as (Hi & Hj & Hne). destruct (plook _ _ _ HF Hi) as (ci & Hci & HRi & Him). destruct (plook _ _ _ HF Hj) as (cj & Hcj & HRj & Hjm).
    destruct (Nat.eqb_spec i j); [contradiction|]. rewrite (load_some _ _ _ Hci), (load_some _ _ _ Hcj). cbn [rbind].
    destruct (pm_merge_ok ci cj _ _ HRi HRj) as (d' & s' & b & mv & rs & Hm & HPd & HPs & Hp & Hmv & Hrs). rewrite Hm. cbn [rbind].
    rewrite list_insert_commute by assumption. destruct b.
    + exists (<[j := s']> (<[i := d']> cs)), ns, MThrew, (upd (upd ms i (mv ++ mget ms i)) j rs). split; [reflexivity|]. split.
      * left. cbn. right. split; [reflexivity|]. exists mv, rs. auto.
      * rewrite !upd_insert. split; [|rewrite !insert_length; auto]. apply Forall2_insert; [apply Forall2_insert; assumption|assumption].
    + eexists _, ns, MDone, _. split; [reflexivity|]. split; [left; cbn; left; split; reflexivity|].
      rewrite !upd_insert. split; [|rewrite !insert_length; auto]. specialize (Hrs eq_refl).
      apply Forall2_insert; [apply Forall2_insert; [assumption|]|].
      * eapply PR_perm; [exact HPd|]. f_equiv. rewrite (filter_perm _ _ _ Hp), List.filter_app.
        rewrite (filter_all _ mv), (filter_none _ rs), app_nil_r; [reflexivity| |].
        -- intros x Hx. rewrite (Hrs x Hx). reflexivity.
        -- intros x Hx. rewrite (Hmv x Hx). reflexivity.
      * eapply PR_perm; [exact HPs|]. rewrite (filter_perm _ _ _ Hp), List.filter_app. rewrite (filter_none _ mv), (filter_all _ rs) by assumption. reflexivity.
  - destruct Ho as [Hi Hn]. destruct (plook _ _ _ HF Hi) as (c & Hc & HR & Him). destruct (lookup_lt_is_Some_2 ns n Hn) as [nd Hnd].
    rewrite (load_some _ _ _ Hc), (load_some _ _ _ Hnd). cbn [rbind].
    destruct (pm_extract_ok c _ k HR) as (c' & He & HR'). rewrite He. cbn [rbind]. eexists _, _, _, _. split; [reflexivity|].
    split; [left; cbn; rewrite !upd_insert; split; reflexivity|]. split; [apply Forall2_insert; assumption|]. rewrite !insert_length. auto.
  - destruct Ho as [Hi Hn]. destruct (plook _ _ _ HF Hi) as (c & Hc & HR & Him). destruct (lookup_lt_is_Some_2 ns n Hn) as [nd Hnd].
    rewrite (load_some _ _ _ Hc), (load_some _ _ _ Hnd). cbn [rbind]. destruct nd as [e|].
    + pose proof (pm_insert_ok c _ e HR) as Hins. destruct (has_key eqb (mget ms i) e) eqn:Hh.
      * rewrite Hins. cbn [rbind]. exists cs, ns, (MBool false), ms. rewrite !list_insert_id by assumption. split; [reflexivity|]. split; [|auto].
        left. cbn. unfold nget. rewrite (nth_lookup_Some _ _ _ _ Hnd), Hh. auto.
      * destruct Hins as [Hb|(c' & Hb & HR')]; rewrite Hb.
        -- exists cs, ns, MThrew, ms. split; [reflexivity|]. split; [|auto]. left. cbn. unfold nget. rewrite (nth_lookup_Some _ _ _ _ Hnd), Hh. auto.
        -- cbn [rbind]. eexists _, _, _, _. split; [reflexivity|].
           split; [left; cbn; unfold nget; rewrite (nth_lookup_Some _ _ _ _ Hnd), Hh, !upd_insert; left; split; reflexivity|].
           rewrite !insert_length. split; [|auto]. apply Forall2_insert; assumption.
    + cbn [p_insert_node rbind]. exists cs, ns, (MBool false), ms. rewrite !list_insert_id by assumption. split; [reflexivity|]. split; [|auto].
      left. cbn. unfold nget. rewrite (nth_lookup_Some _ _ _ _ Hnd). auto.
  - destruct Ho as [Hi Hj]. destruct (plook _ _ _ HF Hi) as (ci & Hci & HRi & Him). destruct (plook _ _ _ HF Hj) as (cj & Hcj & HRj & Hjm).
    rewrite (load_some _ _ _ Hci), (load_some _ _ _ Hcj). cbn [rbind].
    destruct (pm_eq_ok ci cj _ _ HRi HRj) as (b & Hb & Hiff). rewrite Hb. cbn [rbind].
    exists cs, ns, (MBool b), ms. split; [reflexivity|]. split; [|auto]. left. cbn. exists b. auto.
  - destruct (plook _ _ _ HF Ho) as (c & Hc & HR & Him). rewrite (load_some _ _ _ Hc). cbn [rbind].
    destruct (p_erase_if_ok p c _ HR) as (c' & He & HR' & _). rewrite He. cbn [rbind].
    eexists _, ns, _, _. split; [reflexivity|]. split; [left; cbn; exists (pelems c); split; [reflexivity|]; split; [apply HR|reflexivity]|].
    rewrite upd_insert. split; [apply Forall2_insert; assumption|]. split; [apply insert_length|reflexivity].
Qed.

Lemma pm_run_ok os : forall (cs : list ptable) ns ms, Forall2 PR cs ms -> Forall (pmop_ok (length cs) (length ns)) os ->
  exists cs' ns' rs ms', pm_run hash eqb eeq E lg cs ns os = Ok (cs', ns', rs) /\ p_mrun eqb eeq (ms, ns) os rs (ms', ns') /\ Forall2 PR cs' ms'.
Proof.
  induction os as [|o os IH]; intros cs ns ms HF Ho.
  - exists cs, ns, [], ms. split; [reflexivity|]. split; [constructor|assumption].
  - inversion Ho as [|? ? Ho1 Ho2]; subst.
    destruct (pm_exec_ok cs ns ms o HF Ho1) as (cs1 & ns1 & r & ms1 & He & Hst & HF1 & Hl1 & Hl2).
    destruct (IH cs1 ns1 ms1 HF1) as (cs2 & ns2 & rs & ms2 & Hr & Hsr & HF2); [rewrite Hl1, Hl2; assumption|].
    exists cs2, ns2, (r :: rs), ms2. cbn [pm_run]. rewrite He. cbn [rbind]. rewrite Hr. cbn [rbind].
    split; [reflexivity|]. split; [econstructor; eassumption|assumption].
Qed.
Lemma pm_start a : Forall2 PR (replicate a (p_empty lg)) (replicate a []).
Proof using. induction a; cbn; [constructor|]. constructor; [apply replicate_PR; reflexivity|assumption]. Qed.
End SeqProof.
