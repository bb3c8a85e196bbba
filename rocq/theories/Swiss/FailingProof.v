(** Proofs about histories with failing insertions: the invariant of a table whose size() counts elements that do
    not exist. *)
From stdpp Require Import list.
From Coq Require Import Arith NArith ZArith Lia.
From Coq Require Import ZifyBool ZifyNat ZifyN.
From Verif.Common Require Import Res Word WordFacts.
From Verif.Swiss Require Import Group GroupSpec GroupProof GroupPortableProof Model Probe Inv TableInv Resize Ops MapSpec History Reserve Failing.
Ltac Zify.zify_post_hook ::= Z.div_mod_to_equations.
Local Open Scope nat_scope.
Local Open Scope res_scope.
Local Arguments cnt : simpl never.
Local Arguments elems : simpl never.

Section FailingProof.
Context {K V : Type} (hash : K -> N) (eqb : K -> K -> bool) (E : env).
Context (HE : env_ok E) (HK : KeyOK hash eqb).
Set Default Proof Using "HE HK".
Notation HG := (eo_group E HE).
Notation W := (g_width (e_group E)).
Notation elt := (K * V)%type.
Notation table := (table K V).
Notation good := (good hash eqb E).
Notation tinv := (tinv hash eqb E).
Notation tinv0 := (tinv0 hash eqb E).
Notation CTG t := (CapacityToGrowth W (t_cap t)).
Notation del t := (ndel (t_ctrl t) (t_cap t)).
Notation full t := (length (elems (t_slots t))).

(** the same table with other counters *)
Definition wth (t : table) (s : nat) (g : N) : table := mkTable (t_ctrl t) (t_slots t) s (t_cap t) g.
Definition core (t : table) : table := wth t (full t) (N.of_nat (CTG t - full t - del t)).
Record pinv (t : table) : Prop := {
  p_core : tinv (core t);
  p_le : full t <= t_size t;
  p_gr : N.to_nat (t_growth t) + full t + del t <= CTG t;
  p_ge : CTG t <= t_size t + N.to_nat (t_growth t) + del t
}.
Definition pgood (t : table) : Prop := t = empty_table \/ pinv t.
(** no tombstones, and the counters agree *)
Definition exact (t : table) : Prop := del t = 0 /\ t_size t + N.to_nat (t_growth t) = CTG t.
Definition xgood (t : table) : Prop := t = empty_table \/ exact t.

Lemma core_wth t s g : core (wth t s g) = core t.
Proof using. reflexivity. Qed.
Lemma core_tinv t : tinv t -> core t = t.
Proof using.
  intros Ht. unfold core, wth. rewrite <- (tv_size _ _ _ _ Ht), <- (tv_growth _ _ _ _ Ht). destruct t; reflexivity.
Qed.
Lemma tinv_pinv t : tinv t -> pinv t.
Proof using.
  intros Ht. pose proof (tv_room _ _ _ _ Ht). pose proof (tv_size _ _ _ _ Ht). pose proof (tv_growth _ _ _ _ Ht) as Hg.
  constructor; [rewrite core_tinv; assumption|lia|lia|lia].
Qed.
Lemma good_pgood t : good t -> pgood t.
Proof using. intros [->|Ht]; [left; reflexivity|right; apply tinv_pinv; assumption]. Qed.

Lemma pinv_room t : pinv t -> full t + del t <= CTG t.
Proof using. intros Hp. exact (tv_room _ _ _ _ (p_core _ Hp)). Qed.
Lemma pinv_cap t : pinv t -> valid_cap (t_cap t).
Proof using. intros Hp. exact (tinv_cap hash eqb E (core t) (p_core _ Hp)). Qed.
Lemma pinv_tinv0 t : pinv t -> tinv0 t.
Proof using.
  intros Hp. destruct (tv_0 _ _ _ _ (p_core _ Hp)) as [H1 H2 H3 H4 H5].
  constructor; assumption.
Qed.
Lemma pinv_growth64 t : pinv t -> (t_growth t < 2 ^ 62)%N.
Proof using HE.
  intros Hp. pose proof (p_gr _ Hp). pose proof (cap_le_growth E (t_cap t)). pose proof (tv_bytes _ _ _ _ (p_core _ Hp)) as Hb.
  pose proof (eo_max _ HE). unfold needed_bytes in Hb. cbn [core wth t_cap] in Hb. lia.
Qed.

(** ** lookups do not read the counters *)
Lemma pfind_core t k : find_key hash eqb E t k = find_key hash eqb E (core t) k.
Proof using. apply find_fields; reflexivity. Qed.
Lemma pfind_absent t k : pgood t -> absent eqb t k -> find_key hash eqb E t k = Ok None.
Proof.
  intros [->|Hp] Ha; [apply (good_find_absent hash eqb E HE HK); [left; reflexivity|assumption]|].
  rewrite pfind_core. apply (good_find_absent hash eqb E HE HK); [right; apply (p_core _ Hp)|exact Ha].
Qed.
Lemma pfind_present t k i e : pgood t -> t_slots t !! i = Some (Some e) -> eqb k (fst e) = true -> find_key hash eqb E t k = Ok (Some i).
Proof.
  intros [->|Hp] Hs Hk; [discriminate|].
  rewrite pfind_core. eapply (good_find_present hash eqb E HE HK); [right; apply (p_core _ Hp)|exact Hs|exact Hk].
Qed.
Lemma pgood_dist t : pgood t -> distinct eqb (elems (t_slots t)).
Proof using. intros [->|Hp]; [exact I|exact (ti_dist _ _ _ _ (tv_0 _ _ _ _ (p_core _ Hp)))]. Qed.
Lemma ptraverse t : pgood t -> to_list E t = Ok (elems (t_slots t)).
Proof.
  intros Hp. assert (Hg : exists u, good u /\ t_ctrl t = t_ctrl u /\ t_slots t = t_slots u /\ t_cap t = t_cap u).
  { destruct Hp as [->|Hp]; [exists empty_table; split; [left; reflexivity|auto]|exists (core t); split; [right; apply (p_core _ Hp)|auto]]. }
  destruct Hg as (u & Hu & H1 & H2 & H3). rewrite (iter_fields E t u H1 H2 H3), H2.
  destruct (iterate_ok hash eqb E HE HK u Hu) as (is & _ & H & _). exact H.
Qed.

(** ** operations that carry the counters along *)
Lemma drop_loop_wth s g : forall fuel t i, drop_loop hash E fuel (wth t s g) i = rmap (fun u => wth u s g) (drop_loop hash E fuel t i).
Proof using.
  induction fuel as [|f IH]; intros t i; [reflexivity|]. cbn [drop_loop wth t_ctrl t_slots t_cap t_size t_growth].
  destruct (i =? t_cap t); [reflexivity|].
  destruct (load (t_ctrl t) i) as [c| | | |]; cbn [rbind rmap]; try reflexivity.
  destruct (negb (IsDeleted c)); [apply IH|].
  destruct (load (t_slots t) i) as [sl| | | |]; cbn [rbind rmap]; try reflexivity.
  destruct (of_option sl) as [e| | | |]; cbn [rbind rmap]; try reflexivity.
  destruct (find_first_non_full E (t_ctrl t) (t_cap t) (hash (fst e))) as [ni| | | |]; cbn [rbind rmap]; try reflexivity.
  destruct (_ =? _).
  - destruct (set_ctrl E (t_ctrl t) (t_cap t) i (H2 (hash (fst e)))) as [c1| | | |]; cbn [rbind rmap]; try reflexivity.
    exact (IH (mkTable c1 (t_slots t) (t_size t) (t_cap t) (t_growth t)) (S i)).
  - destruct (load (t_ctrl t) ni) as [cn| | | |]; cbn [rbind rmap]; try reflexivity. destruct (IsEmpty cn).
    + destruct (set_ctrl E (t_ctrl t) (t_cap t) ni _) as [c1| | | |]; cbn [rbind rmap]; try reflexivity.
      destruct (take_slot (t_slots t) i) as [[e1 s1]| | | |]; cbn [rbind rmap]; try reflexivity.
      destruct (construct s1 ni e1) as [s2| | | |]; cbn [rbind rmap]; try reflexivity.
      destruct (set_ctrl E c1 (t_cap t) i kEmpty) as [c2| | | |]; cbn [rbind rmap]; try reflexivity.
      exact (IH (mkTable c2 s2 (t_size t) (t_cap t) (t_growth t)) (S i)).
    + destruct (set_ctrl E (t_ctrl t) (t_cap t) ni _) as [c1| | | |]; cbn [rbind rmap]; try reflexivity.
      destruct (take_slot (t_slots t) i) as [[e1 s1]| | | |]; cbn [rbind rmap]; try reflexivity.
      destruct (take_slot s1 ni) as [[e2 s2]| | | |]; cbn [rbind rmap]; try reflexivity.
      destruct (construct s2 i e2) as [s3| | | |]; cbn [rbind rmap]; try reflexivity.
      destruct (construct s3 ni e1) as [s4| | | |]; cbn [rbind rmap]; try reflexivity.
      exact (IH (mkTable c1 s4 (t_size t) (t_cap t) (t_growth t)) i).
Qed.
Lemma drop_deletes_wth t s g : drop_deletes_without_resize hash E (wth t s g) =
  rmap (fun u => wth u s (growth_left_for E (t_cap u) s)) (drop_deletes_without_resize hash E t).
Proof using.
  unfold drop_deletes_without_resize. cbn [wth t_ctrl t_slots t_cap t_size t_growth]. destruct (_ <? _); [reflexivity|].
  destruct (convert_ctrl E (t_ctrl t) (t_cap t)) as [c| | | |]; cbn [rbind rmap]; try reflexivity.
  pose proof (drop_loop_wth s g (S (2 * t_cap t)) (mkTable c (t_slots t) (t_size t) (t_cap t) (t_growth t)) 0) as H.
  unfold wth in H. cbn [t_ctrl t_slots t_cap t_size t_growth] in H. rewrite H. clear H.
  destruct (drop_loop hash E _ _ 0) as [u| | | |]; cbn [rbind rmap]; reflexivity.
Qed.
Lemma finish_wth t p e s g : finish_insert hash E (wth t s g) p e = rmap (fun u => wth u s g) (finish_insert hash E t p e).
Proof using.
  unfold finish_insert. cbn [wth t_ctrl t_slots t_cap t_size t_growth].
  destruct (construct (t_slots t) p e) as [sl| | | |]; cbn [rbind rmap]; try reflexivity.
  destruct (set_ctrl E (t_ctrl t) (t_cap t) p _); reflexivity.
Qed.
Lemma finish_growth (t : table) p e u : finish_insert hash E t p e = Ok u -> t_growth u = t_growth t /\ t_size u = t_size t.
Proof using.
  unfold finish_insert. destruct (construct _ _ _); cbn [rbind]; try discriminate. destruct (set_ctrl _ _ _ _ _); cbn [rbind]; try discriminate.
  intros [= <-]. auto.
Qed.

(** ** a table without tombstones whose counters agree *)
Lemma pinv_fresh (t : table) : tinv0 t -> del t = 0 -> full t <= t_size t -> t_size t <= CTG t -> t_growth t = growth_left_for E (t_cap t) (t_size t) ->
  (needed_bytes E (N.of_nat (t_cap t)) <= e_max_bytes E)%N -> pinv t.
Proof.
  intros H0 Hd Hf Hs Hg Hb. pose proof (wfc_cap _ _ _ (ti_wfc _ _ _ _ H0)) as Hv.
  assert (Hgl : growth_left_for E (t_cap t) (t_size t) = N.of_nat (CTG t - t_size t)) by (apply (growth_left_small E HE); first [assumption | lia]).
  rewrite Hgl in Hg. constructor; [|assumption|lia|lia].
  destruct H0 as [H1 H2 H3 H4 H5]. constructor; cbn [core wth t_ctrl t_slots t_cap t_size t_growth]; [constructor; assumption|reflexivity|lia|reflexivity|auto|assumption].
Qed.

Lemma exact_fresh (t : table) : valid_cap (t_cap t) -> del t = 0 -> t_size t <= CTG t -> t_growth t = growth_left_for E (t_cap t) (t_size t) -> exact t.
Proof using HE.
  intros Hv Hd Hs Hg. split; [assumption|]. rewrite Hg, (growth_left_small E HE) by assumption. lia.
Qed.
Lemma exact_tinv (t : table) : tinv t -> del t = 0 -> exact t.
Proof using.
  intros Ht Hd. split; [assumption|]. rewrite (tv_growth _ _ _ _ Ht). pose proof (tv_room _ _ _ _ Ht). lia.
Qed.
Lemma xgood_size (t : table) : xgood t -> t_size t <= t_cap t.
Proof using. intros [->|[_ H]]; [cbn; lia|]. pose proof (cap_le_growth E (t_cap t)). lia. Qed.

(** ** growth *)
Lemma pgrow t : pgood t -> t_growth t = 0%N -> t_size t <= t_cap t ->
  rehash_and_grow_if_necessary hash E t = BadAlloc \/
  exists t', rehash_and_grow_if_necessary hash E t = Ok t' /\ pinv t' /\ del t' = 0 /\ t_size t' = t_size t /\
    elems (t_slots t') ≡ₚ elems (t_slots t) /\ (0 < t_growth t')%N /\ exact t'.
Proof.
  intros Hg H0 Hsz. destruct Hg as [->|Hp].
  - destruct (grow_ok hash eqb E HE HK (empty_table : table) (or_introl eq_refl) eq_refl) as [[Hb _]|(t' & Hr & Ht' & Hd & Hs & Hpm & Hlt & _)]; [auto|right].
    exists t'. split; [assumption|]. split; [apply tinv_pinv; assumption|]. repeat (split; [assumption|]). split; [rewrite (tv_growth _ _ _ _ Ht'); lia|apply exact_tinv; assumption].
  - pose proof (pinv_cap t Hp) as Hv. destruct (growth_facts E HE _ Hv) as (Hg1 & Hgs & Hgl & Hgd).
    pose proof (pinv_room t Hp) as Hroom. pose proof (p_ge t Hp) as Hge. pose proof (p_le t Hp) as Hle. rewrite H0 in Hge. cbn in Hge.
    pose proof (tv_bytes _ _ _ _ (p_core t Hp)) as Hby. cbn [core wth t_cap] in Hby.
    unfold rehash_and_grow_if_necessary. destruct (Nat.eqb_spec (t_cap t) 0) as [Hc0|Hc0]; [pose proof (valid_cap_cases _ Hv); lia|].
    destruct (Nat.leb_spec (t_size t) (CTG t / 2)) as [Hhalf|Hhalf].
    + right. assert (Hlarge : W <= S (t_cap t)).
      { destruct (Nat.le_gt_cases W (S (t_cap t))); [assumption|].
        pose proof (tv_small _ _ _ _ (p_core t Hp)) as Hsm. cbn [core wth t_cap t_ctrl] in Hsm. specialize (Hsm ltac:(lia)). lia. }
      destruct (drop_deletes_ok hash eqb E HE HK (core t) (p_core t Hp) Hlarge) as (u & Hr & Hu & Hnd & Hsu & Hcu & Hpu).
      assert (Ht : t = wth (core t) (t_size t) (t_growth t)) by (destruct t; reflexivity).
      rewrite Ht, drop_deletes_wth, Hr. cbn [rmap wth t_size]. eexists. split; [reflexivity|].
      cbn [core wth t_cap t_size t_slots] in Hcu, Hsu, Hpu.
      assert (Hgu : growth_left_for E (t_cap u) (t_size t) = N.of_nat (CTG u - t_size t)) by (rewrite Hcu; apply (growth_left_small E HE); first [assumption | lia]).
      unfold wth. cbn [t_ctrl t_slots t_cap t_size t_growth].
      split; [|repeat (split; [first [assumption|reflexivity]|])].
      * apply pinv_fresh; cbn [t_ctrl t_slots t_cap t_size t_growth]; try assumption; [|rewrite (Permutation_length Hpu); lia|rewrite Hcu; lia|reflexivity|rewrite Hcu; assumption].
        destruct (tv_0 _ _ _ _ Hu) as [A1 A2 A3 A4 A5]. constructor; assumption.
      * split; [rewrite Hgu, Hcu; lia|]. apply exact_fresh; cbn [t_ctrl t_slots t_cap t_size t_growth]; rewrite ?Hcu in *; first [assumption|lia|reflexivity].
    + destruct (no_wrap_double E HE (t_cap t) Hby ltac:(lia)) as [Hnw Hwa]. rewrite Hwa.
      assert (Hto : N.to_nat (2 * N.of_nat (t_cap t) + 1) = 2 * t_cap t + 1) by lia.
      assert (Hlt62 : (N.of_nat (t_cap t) < 2 ^ 62)%N).
      { pose proof (eo_max _ HE). unfold needed_bytes in Hby. lia. }
      assert (Hv2 : valid_cap (2 * t_cap t + 1)) by (apply valid_cap_double; assumption).
      pose proof (cap_le_growth E (t_cap t)) as Hcg. pose proof (growth_facts E HE _ Hv2) as Hg2.
      assert (Hbig : t_cap t < CapacityToGrowth W (2 * t_cap t + 1)).
      { unfold CapacityToGrowth. destruct (Nat.eqb_spec W 8), (Nat.eqb_spec (2 * t_cap t + 1) 7); cbn [andb]; pose proof (valid_cap_cases _ Hv); lia. }
      destruct (resize_ok hash eqb E HE HK t (2 * N.of_nat (t_cap t) + 1)) as [[Hb _]|(u & Hr & Hu & Hnd & Hsu & Hcu & Hgu & Hpu & Hbu)].
      * right. apply pinv_tinv0. assumption.
      * rewrite Hto. assumption.
      * assumption.
      * rewrite Hto. lia.
      * left. assumption.
      * right. exists u. split; [assumption|]. rewrite Hto in Hcu, Hgu.
        assert (Hgv : growth_left_for E (2 * t_cap t + 1) (t_size t) = N.of_nat (CapacityToGrowth W (2 * t_cap t + 1) - t_size t)) by (apply (growth_left_small E HE); first [assumption | lia]).
        split; [|split; [assumption|split; [assumption|split; [assumption|split; [rewrite Hgu, Hgv; lia|apply exact_fresh; rewrite ?Hcu, ?Hsu in *; first [assumption|lia]]]]]].
        apply pinv_fresh; try assumption; [rewrite (Permutation_length Hpu); lia|rewrite Hcu; lia|rewrite Hcu, Hsu; assumption|].
        rewrite Hcu. replace (N.of_nat (2 * t_cap t + 1)) with (2 * N.of_nat (t_cap t) + 1)%N by lia. assumption.
Qed.

(** ** prepare_insert *)
Lemma pprepare t k : pgood t -> absent eqb t k -> t_size t <= t_cap t ->
  prepare_insert hash E t (hash k) = BadAlloc \/
  exists t1 p c, prepare_insert hash E t (hash k) = Ok (wth t1 (S (t_size t1)) (wsub 64 (t_growth t1) (if IsEmpty c then 1%N else 0%N)), p) /\
    pinv t1 /\ t_size t1 = t_size t /\ elems (t_slots t1) ≡ₚ elems (t_slots t) /\ full t1 < t_cap t1 /\
    find_first_non_full E (t_ctrl t1) (t_cap t1) (hash k) = Ok p /\ t_ctrl t1 !! p = Some c /\
    ((0 < t_growth t1)%N \/ t_ctrl t1 !! p = Some kDeleted) /\ (p < t_cap t1 /\ (c < 0)%Z) /\ (exact t1 \/ t1 = t).
Proof.
  intros Hg Ha Hsz. unfold prepare_insert.
  assert (Hff : exists p0 c0, find_first_non_full E (t_ctrl t) (t_cap t) (hash k) = Ok p0 /\ t_ctrl t !! p0 = Some c0 /\
            ((c0 = kDeleted \/ (0 < t_growth t)%N) -> pinv t /\ full t < t_cap t /\ p0 < t_cap t /\ (c0 < 0)%Z)).
  { destruct Hg as [->|Hp].
    - exists 0, kSentinel. split; [apply (ffnf_empty E HE)|]. split; [reflexivity|].
      intros [H|H]; [discriminate|cbn in H; lia].
    - pose proof (pinv_room t Hp) as Hroom. pose proof (pinv_tinv0 t Hp) as H0.
      pose proof (cap_le_growth E (t_cap t)) as Hcg.
      destruct (Nat.lt_ge_cases (full t) (t_cap t)) as [Hlt|Hge].
      + destruct (ffnf_reach hash eqb E HG HK t (hash k) H0 ltac:(lia)) as (p & Hpp & Hpc & (c & Hc & Hcn) & _).
        exists p, c. split; [assumption|]. split; [assumption|]. intros _. split; [assumption|]. split; [assumption|]. split; [assumption|lia].
      + destruct (growth_facts E HE _ (pinv_cap t Hp)) as (_ & _ & Hgl & _).
        assert (Hsm : S (t_cap t) < W) by (destruct (Nat.lt_ge_cases (S (t_cap t)) W) as [|Hl]; [assumption|specialize (Hgl Hl); lia]).
        pose proof (ti_wfc _ _ _ _ H0) as Hwf.
        exists (t_cap t), kSentinel. split; [|split; [apply (wfc_sent _ _ _ Hwf)|]].
        * apply ffnf_small_full; [exact HG|assumption|assumption|].
          intros i Hi. apply (all_full_not_nonfull hash eqb E HG HK t H0); [lia|assumption].
        * intros [H|H]; [discriminate|]. pose proof (p_gr t Hp). lia. }
  destruct Hff as (p0 & c0 & Hp0 & Hc0 & Himp). rewrite Hp0. cbn [rbind]. rewrite (load_some _ _ _ Hc0). cbn [rbind].
  destruct ((t_growth t =? 0)%N && negb (IsDeleted c0)) eqn:Hcond.
  - apply andb_true_iff in Hcond. destruct Hcond as [Hgz _]. apply N.eqb_eq in Hgz.
    destruct (pgrow t Hg Hgz Hsz) as [Hb|(t1 & Hr & Ht1 & Hnd1 & Hsz1 & Hp1 & Hgr1 & Hx1)].
    + left. rewrite Hb. reflexivity.
    + right. rewrite Hr. cbn [rbind]. pose proof (cap_le_growth E (t_cap t1)) as Hcg. pose proof (p_gr _ Ht1).
      destruct (ffnf_reach hash eqb E HG HK t1 (hash k) (pinv_tinv0 t1 Ht1)) as (p & Hp & Hpc & (c & Hc & Hcn) & _); [lia|].
      rewrite Hp. cbn [rbind]. rewrite (load_some _ _ _ Hc). cbn [rbind].
      exists t1, p, c. split; [reflexivity|]. repeat (split; [first [assumption | lia]|]). left. assumption.
  - right. assert (Hor : c0 = kDeleted \/ (0 < t_growth t)%N).
    { destruct (IsDeleted c0) eqn:Hd; [left; apply Z.eqb_eq; exact Hd|right].
      rewrite andb_true_r in Hcond. apply N.eqb_neq in Hcond. clear -Hcond. lia. }
    destruct (Himp Hor) as (Hp & Hlt & Hpc & Hcn). cbn [rbind]. rewrite (load_some _ _ _ Hc0). cbn [rbind].
    exists t, p0, c0. split; [reflexivity|]. repeat (split; [first [assumption|reflexivity]|]).
    split; [destruct Hor as [->|?]; auto|]. split; [split; assumption|right; reflexivity].
Qed.

Lemma nodel_empty (t1 : table) p c : pinv t1 -> del t1 = 0 -> p < t_cap t1 -> t_ctrl t1 !! p = Some c -> (c < 0)%Z -> IsEmpty c = false -> False.
Proof using.
  intros Hp Hx Hpc Hc Hcn He. unfold ndel in Hx. rewrite cnt_zero in Hx.
  assert (Hc' : take (t_cap t1) (t_ctrl t1) !! p = Some c) by (rewrite lookup_take by assumption; assumption).
  specialize (Hx _ _ Hc'). destruct (wfc_byte _ _ _ (ti_wfc _ _ _ _ (pinv_tinv0 _ Hp)) p Hpc) as (c' & Hc2 & Hs). rewrite Hc in Hc2. injection Hc2 as <-.
  unfold isDel, IsEmpty, sb, kEmpty, kDeleted in *. lia.
Qed.
(** the constructor throws: the counters moved, nothing else *)
Lemma pfail t1 p c : pinv t1 -> t_ctrl t1 !! p = Some c -> ((0 < t_growth t1)%N \/ t_ctrl t1 !! p = Some kDeleted) ->
  p < t_cap t1 /\ (c < 0)%Z ->
  pinv (wth t1 (S (t_size t1)) (wsub 64 (t_growth t1) (if IsEmpty c then 1%N else 0%N))) /\
  (exact t1 -> exact (wth t1 (S (t_size t1)) (wsub 64 (t_growth t1) (if IsEmpty c then 1%N else 0%N)))).
Proof.
  intros Hp Hc Hor [Hpc Hcn]. pose proof (pinv_growth64 _ Hp) as H64. pose proof (p_le _ Hp). pose proof (p_gr _ Hp). pose proof (p_ge _ Hp).
  assert (Hw : exists d, wsub 64 (t_growth t1) (if IsEmpty c then 1%N else 0%N) = (t_growth t1 - d)%N /\ (d <= t_growth t1 /\ d <= 1)%N /\ (exact t1 -> d = 1%N)).
  { destruct (IsEmpty c) eqn:He.
    - destruct Hor as [Hor|Hor]; [|rewrite Hc in Hor; injection Hor as ->; discriminate].
      exists 1%N. rewrite wsub_small by (change (2 ^ 64)%N with (4 * 2 ^ 62)%N; lia). split; [reflexivity|]. split; [lia|auto].
    - exists 0%N. rewrite wsub_small by (change (2 ^ 64)%N with (4 * 2 ^ 62)%N; lia). split; [reflexivity|]. split; [lia|].
      intros [Hx _]. exfalso. exact (nodel_empty t1 p c Hp Hx Hpc Hc Hcn He). }
  destruct Hw as (d & Hw & [Hd1 Hd2] & Hdx). rewrite Hw.
  split; [|intros Hx; specialize (Hdx Hx); destruct Hx as [Hx1 Hx2]; split; cbn [wth t_ctrl t_slots t_cap t_size t_growth]; [assumption|lia]].
  constructor; cbn [wth t_ctrl t_slots t_cap t_size t_growth]; [exact (p_core _ Hp)|lia|lia|lia].
Qed.
(** the constructor succeeds *)
Lemma pfinish t1 k v p c : pinv t1 -> absent eqb t1 k -> full t1 < t_cap t1 ->
  find_first_non_full E (t_ctrl t1) (t_cap t1) (hash k) = Ok p -> t_ctrl t1 !! p = Some c ->
  ((0 < t_growth t1)%N \/ t_ctrl t1 !! p = Some kDeleted) -> p < t_cap t1 /\ (c < 0)%Z ->
  exists t', finish_insert hash E (wth t1 (S (t_size t1)) (wsub 64 (t_growth t1) (if IsEmpty c then 1%N else 0%N))) p (k, v) = Ok t' /\
    pinv t' /\ t_slots t' !! p = Some (Some (k, v)) /\ t_size t' = S (t_size t1) /\ elems (t_slots t') ≡ₚ (k, v) :: elems (t_slots t1) /\
    (exact t1 -> exact t').
Proof.
  intros Hp Ha Hlt Hff Hc Hor [Hpc Hcn]. pose proof (pinv_growth64 _ Hp) as H64. pose proof (p_le _ Hp). pose proof (p_gr _ Hp). pose proof (p_ge _ Hp).
  destruct (finish_ok hash eqb E HE HK (core t1) k v p (p_core _ Hp) Ha Hlt Hff) as (c' & u & Hc' & Hfin & Hu & Hcu & Hsn & Hsl & Hsu & Hpu & _).
  { destruct Hor as [Hor|Hor]; [left; cbn [core wth t_growth]; lia|right; exact Hor]. }
  cbn [core wth t_ctrl] in Hc'. rewrite Hc in Hc'. injection Hc' as <-.
  destruct (finish_growth _ _ _ _ Hfin) as [Hgu _]. cbn [core wth t_growth] in Hgu. cbn [core wth t_ctrl t_slots t_cap t_size] in Hcu, Hsn, Hsl, Hsu, Hpu.
  assert (Hfin2 : finish_insert hash E (wth t1 (S (t_size t1)) (wsub 64 (t_growth t1) (if IsEmpty c then 1%N else 0%N))) p (k, v) =
            Ok (wth u (S (t_size t1)) (wsub 64 (t_growth t1) (if IsEmpty c then 1%N else 0%N)))).
  { rewrite finish_wth. unfold core in Hfin. cbn [wth t_ctrl t_slots t_cap t_size t_growth] in Hfin.
    pose proof (finish_wth t1 p (k, v) (S (full t1)) (wsub 64 (N.of_nat (CTG t1 - full t1 - del t1)) (if IsEmpty c then 1%N else 0%N))) as Hx.
    unfold wth at 1 in Hx. rewrite Hfin in Hx. destruct (finish_insert hash E t1 p (k, v)) as [x| | | |]; cbn [rmap] in Hx |- *; try discriminate.
    injection Hx as Hx. rewrite Hx. reflexivity. }
  eexists. split; [exact Hfin2|]. cbn [wth t_slots t_size].
  assert (Hw : exists d, wsub 64 (t_growth t1) (if IsEmpty c then 1%N else 0%N) = (t_growth t1 - d)%N /\ (d <= t_growth t1 /\ d <= 1)%N /\ t_growth u = (N.of_nat (CTG t1 - full t1 - del t1) - d)%N /\ (exact t1 -> d = 1%N)).
  { pose proof (cap_le_growth E (t_cap t1)). pose proof (tv_bytes _ _ _ _ (p_core _ Hp)) as Hb.
    pose proof (eo_max _ HE). unfold needed_bytes in Hb. cbn [core wth t_cap] in Hb. change (2 ^ 64)%N with (4 * 2 ^ 62)%N in *.
    destruct (IsEmpty c) eqn:He.
    - destruct Hor as [Hor|Hor]; [|rewrite Hc in Hor; injection Hor as ->; discriminate].
      exists 1%N. rewrite wsub_small by (change (2 ^ 64)%N with (4 * 2 ^ 62)%N; lia). split; [reflexivity|]. split; [lia|].
      split; [rewrite Hgu, wsub_small by (change (2 ^ 64)%N with (4 * 2 ^ 62)%N; lia); lia|auto].
    - exists 0%N. rewrite wsub_small by (change (2 ^ 64)%N with (4 * 2 ^ 62)%N; lia). split; [lia|]. split; [lia|].
      split; [rewrite Hgu, wsub_small by (change (2 ^ 64)%N with (4 * 2 ^ 62)%N; lia); lia|].
      intros [Hx _]. exfalso. exact (nodel_empty t1 p c Hp Hx Hpc Hc Hcn He). }
  destruct Hw as (d & Hw & [Hd1 Hd2] & Hwu & Hdx). rewrite Hw.
  pose proof (tv_growth _ _ _ _ Hu) as Hgu2; pose proof (tv_room _ _ _ _ Hu) as Hru; pose proof (tv_size _ _ _ _ Hu) as Hsu2; rewrite Hcu in Hgu2, Hru.
  split; [|split; [rewrite Hsl; apply list_lookup_insert; apply lookup_lt_Some in Hsn; assumption|split; [reflexivity|split; [assumption|]]]].
  2: { intros Hx. specialize (Hdx Hx). destruct Hx as [Hx1 Hx2]. split; cbn [wth t_ctrl t_slots t_cap t_size t_growth]; rewrite ?Hcu; lia. }
  constructor; cbn [wth t_ctrl t_slots t_cap t_size t_growth].
  - rewrite core_wth, core_tinv; assumption.
  - lia.
  - rewrite Hcu. lia.
  - rewrite Hcu. lia.
Qed.
Lemma xgood_step t t1 : xgood t -> pinv t1 -> exact t1 \/ t1 = t -> exact t1.
Proof using.
  intros [->|Hx] Hp [H1| ->]; try assumption. exfalso. pose proof (pinv_cap _ Hp) as Hv. pose proof (valid_cap_cases _ Hv). cbn in *. lia.
Qed.
Lemma pemplace t k v : pgood t -> absent eqb t k -> t_size t <= t_cap t ->
  emplace hash eqb E t k v = BadAlloc \/
  exists t' p, emplace hash eqb E t k v = Ok (t', p, true) /\ pinv t' /\ t_slots t' !! p = Some (Some (k, v)) /\
    t_size t' = S (t_size t) /\ elems (t_slots t') ≡ₚ (k, v) :: elems (t_slots t) /\ (xgood t -> xgood t').
Proof.
  intros Hg Ha Hsz. unfold emplace. rewrite (pfind_absent t k Hg Ha). cbn [rbind].
  destruct (pprepare t k Hg Ha Hsz) as [Hb|(t1 & p & c & Hpr & Hp1 & Hs1 & Hpm & Hlt & Hff & Hc & Hor & Hpc & Hxt)]; [left; rewrite Hb; reflexivity|right].
  rewrite Hpr. cbn [rbind].
  assert (Ha1 : absent eqb t1 k) by (intros e He; apply Ha; rewrite <- Hpm; assumption).
  destruct (pfinish t1 k v p c Hp1 Ha1 Hlt Hff Hc Hor Hpc) as (t' & Hfin & Hp' & Hsl & Hs' & Hpm' & Hx').
  rewrite Hfin. cbn [rbind]. exists t', p. split; [reflexivity|]. split; [assumption|]. split; [assumption|]. split; [lia|]. split; [rewrite Hpm', Hpm; reflexivity|].
  intros Hx. right. apply Hx'. exact (xgood_step t t1 Hx Hp1 Hxt).
Qed.

(** ** erase, assignment, clear *)
Lemma perase t i e : pinv t -> t_slots t !! i = Some (Some e) ->
  exists t', erase_at E t i = Ok (e, t') /\ pinv t' /\ t_size t = S (t_size t') /\ elems (t_slots t) ≡ₚ e :: elems (t_slots t').
Proof.
  intros Hp Hs. pose proof (pinv_growth64 _ Hp) as H64. pose proof (p_le _ Hp). pose proof (p_gr _ Hp). pose proof (p_ge _ Hp).
  destruct (erase_at_ok hash eqb E HG HK (core t) i e (p_core _ Hp) Hs) as (u & He & Hu & Hsl & Hcu & Hsu & Hpu).
  cbn [core wth t_ctrl t_slots t_cap t_size] in Hcu, Hsl, Hsu, Hpu.
  unfold erase_at in *. cbn [core wth t_ctrl t_slots t_cap t_size t_growth] in He.
  destruct (take_slot (t_slots t) i) as [[e' sl]| | | |]; cbn [rbind] in *; try discriminate.
  unfold erase_meta_only in *. cbn [t_ctrl t_slots t_cap t_size t_growth] in *.
  destruct (load (t_ctrl t) i) as [c| | | |]; cbn [rbind] in *; try discriminate. destruct (IsFull c); [|discriminate].
  destruct (window E (t_ctrl t) i) as [wa| | | |]; cbn [rbind] in *; try discriminate.
  destruct (window E (t_ctrl t) (sub_and i W (t_cap t))) as [wb| | | |]; cbn [rbind] in *; try discriminate.
  set (nf := g_any_empty (e_group E) wb && g_any_empty (e_group E) wa && (g_empty_tz (e_group E) wa + g_empty_lz (e_group E) wb <? W)) in *.
  destruct (set_ctrl E (t_ctrl t) (t_cap t) i (if nf then kEmpty else kDeleted)) as [ctrl'| | | |]; cbn [rbind] in *; try discriminate.
  injection He as -> Heu. eexists. split; [reflexivity|].
  pose proof (tv_growth _ _ _ _ Hu) as Hgu. pose proof (tv_room _ _ _ _ Hu) as Hru. pose proof (tv_size _ _ _ _ Hu) as Hsz.
  rewrite Hcu in Hgu, Hru. pose proof (Permutation_length Hpu) as Hlen. cbn [length] in Hlen.
  assert (Hx : core (mkTable ctrl' sl (t_size t - 1) (t_cap t) (wadd 64 (t_growth t) (if nf then 1%N else 0%N))) = u).
  { etransitivity; [|apply core_tinv; exact Hu]. rewrite <- Heu. reflexivity. }
  assert (Hctrl : t_ctrl u = ctrl') by (rewrite <- Heu; reflexivity). assert (Hsl2 : t_slots u = sl) by (rewrite <- Heu; reflexivity).
  assert (Hgu2 : t_growth u = wadd 64 (N.of_nat (CTG t - full t - del t)) (if nf then 1%N else 0%N)) by (rewrite <- Heu; reflexivity).
  assert (HB : (N.of_nat (CTG t) < 2 ^ 62)%N).
  { pose proof (cap_le_growth E (t_cap t)). pose proof (tv_bytes _ _ _ _ (p_core _ Hp)) as Hb. pose proof (eo_max _ HE). unfold needed_bytes in Hb. cbn [core wth t_cap] in Hb. lia. }
  unfold wadd in *. rewrite N.mod_small in Hgu2 by (change (2 ^ 64)%N with (4 * 2 ^ 62)%N; destruct nf; lia).
  rewrite N.mod_small by (change (2 ^ 64)%N with (4 * 2 ^ 62)%N; destruct nf; lia).
  rewrite Hctrl in *. rewrite Hsl2 in *.
  split; [|split; [cbn [t_size]; lia|assumption]].
  constructor; cbn [t_ctrl t_slots t_cap t_size t_growth].
  - rewrite N.mod_small in Hx by (change (2 ^ 64)%N with (4 * 2 ^ 62)%N; destruct nf; lia). rewrite Hx. assumption.
  - lia.
  - destruct nf; lia.
  - destruct nf; lia.
Qed.
Lemma passign t i e v : pinv t -> t_slots t !! i = Some (Some e) ->
  exists t', assign_at t i v = Ok t' /\ pinv t' /\ t_slots t' = <[i := Some (fst e, v)]> (t_slots t) /\ t_size t' = t_size t /\ (xgood t -> xgood t').
Proof.
  intros Hp Hs. destruct (assign_ok hash eqb E HE HK (core t) i e v (p_core _ Hp) Hs) as (u & Ha & Hu & Hsl & Hsu & Hcu).
  unfold assign_at in *. cbn [core wth t_ctrl t_slots t_cap t_size t_growth] in *.
  destruct (load (t_slots t) i) as [x| | | |]; cbn [rbind] in *; try discriminate.
  destruct (of_option x) as [y| | | |]; cbn [rbind] in *; try discriminate.
  destruct (store (t_slots t) i (Some (fst y, v))) as [sl| | | |]; cbn [rbind] in *; try discriminate.
  injection Ha as Ha. eexists. split; [reflexivity|]. cbn [t_slots t_size].
  assert (Hsl2 : sl = t_slots u) by (rewrite <- Ha; reflexivity).
  assert (Hlen : length (elems sl) = full t).
  { rewrite Hsl2, <- (tv_size _ _ _ _ Hu), Hsu. reflexivity. }
  pose proof (p_le _ Hp). pose proof (p_gr _ Hp). pose proof (p_ge _ Hp).
  split; [|split; [congruence|split; [reflexivity|]]].
  2: { intros [->|Hx]; [discriminate|right; exact Hx]. }
  constructor; cbn [t_ctrl t_slots t_cap t_size t_growth]; [|lia|lia|lia].
  unfold core, wth. cbn [t_ctrl t_slots t_cap t_size t_growth]. rewrite Hlen, Ha. assumption.
Qed.
Lemma pclear t : pgood t -> exists t', clear E t = Ok t' /\ pgood t' /\ t_size t' = 0 /\ elems (t_slots t') = [] /\ (xgood t -> xgood t').
Proof.
  intros [->|Hp].
  { destruct (clear_ok hash eqb E HE HK (empty_table : table) (or_introl eq_refl)) as (t' & H1 & H2 & H3 & H4 & _). exists t'. split; [assumption|]. split; [apply good_pgood; assumption|]. split; [assumption|]. split; [assumption|]. intros _. cbn in H1. injection H1 as <-. left. reflexivity. }
  pose proof (p_le _ Hp). unfold clear. destruct (Nat.eqb_spec (t_size t) 0) as [H0|H0].
  - exists t. split; [reflexivity|]. split; [right; assumption|]. split; [assumption|]. split; [apply nil_length_inv; lia|auto].
  - pose proof (pinv_cap t Hp) as Hv. pose proof (valid_cap_cases _ Hv). destruct (Nat.eqb_spec (t_cap t) 0); [lia|].
    pose proof (ti_wfc _ _ _ _ (pinv_tinv0 t Hp)) as Hwf. destruct (wfc_last _ _ _ Hwf) as (last & Hlast & Hl8).
    rewrite (load_some _ _ _ Hlast). cbn [rbind]. eexists. split; [reflexivity|]. cbn [t_slots t_size]. rewrite elems_replicate_none.
    destruct (fresh_tinv0 hash eqb E HE HK (V:=V) (t_cap t) 0 (growth_left_for E (t_cap t) 0) last Hl8 Hv) as [Hf Hnd].
    split; [|split; [reflexivity|split; [reflexivity|]]].
    + right. apply pinv_fresh; cbn [t_ctrl t_slots t_cap t_size t_growth]; [assumption|assumption|rewrite elems_replicate_none; cbn; lia|lia|reflexivity|].
      exact (tv_bytes _ _ _ _ (p_core t Hp)).
    + intros _. right. apply exact_fresh; cbn [t_ctrl t_slots t_cap t_size t_growth]; [assumption|assumption|lia|reflexivity].
Qed.

(** ** rehash, reserve *)
Lemma prehash t n : pgood t -> t_size t <= t_cap t -> n <> 0%N -> (n < 2 ^ 64)%N -> no_wrap E (NormalizeCapacity n) ->
  rehash hash E t n = BadAlloc \/
  exists t', rehash hash E t n = Ok t' /\ pgood t' /\ t_size t' = t_size t /\ elems (t_slots t') ≡ₚ elems (t_slots t) /\ (xgood t -> xgood t').
Proof.
  intros [->|Hp] Hsz Hn Hn64 Hnw.
  { unfold rehash. destruct (N.eqb_spec n 0) as [|_]; [congruence|]. cbn [andb orb t_cap t_size empty_table N.of_nat]. rewrite N.max_l by lia.
    pose proof (no_wrap_lt E HE _ Hnw) as Hm63. destruct (normalize_ge n Hn64) as [Hge Hge1].
    destruct (N.ltb_spec 0 (NormalizeCapacity n)) as [Hlt|Hlt]; [|lia]. set (m := NormalizeCapacity n) in *.
    assert (Hvm : valid_cap (N.to_nat m)) by (apply normalize_valid; lia).
    destruct (resize_ok hash eqb E HE HK (empty_table : table) m) as [[Hb _]|(u & Hr & Hu & Hnd & Hsu & Hcu & Hgu & Hpu & Hbu)]; [left; reflexivity|assumption|assumption|change (length (elems (t_slots (empty_table : table)))) with 0; lia|auto|right].
    change (t_size empty_table) with 0 in Hsu, Hgu. exists u. split; [assumption|]. split; [|split; [assumption|split; [assumption|]]].
    - right. apply pinv_fresh; try assumption; [rewrite (Permutation_length Hpu); change (length (elems (t_slots (empty_table : table)))) with 0; lia|rewrite Hsu; lia|rewrite Hcu, Hsu; assumption|].
      rewrite Hcu, N2Nat.id. assumption.
    - intros _. right. apply exact_fresh; rewrite ?Hcu, ?Hsu in *; first [assumption|lia]. }
  pose proof (pinv_cap t Hp) as Hv. pose proof (p_le _ Hp) as Hle.
  pose proof (tv_bytes _ _ _ _ (p_core t Hp)) as Hby. cbn [core wth t_cap] in Hby.
  assert (Hlt62 : (N.of_nat (t_cap t) < 2 ^ 62)%N) by (pose proof (eo_max _ HE); unfold needed_bytes in Hby; lia).
  unfold rehash. destruct (N.eqb_spec n 0) as [|_]; [congruence|]. cbn [andb orb].
  pose proof (no_wrap_lt E HE _ Hnw) as Hm63. destruct (normalize_ge n Hn64) as [Hge Hge1].
  destruct (N.ltb_spec (N.of_nat (t_cap t)) (NormalizeCapacity (N.max n (N.of_nat (t_size t))))) as [Hlt|Hlt].
  - assert (Hmax : NormalizeCapacity (N.max n (N.of_nat (t_size t))) = NormalizeCapacity n).
    { destruct (N.le_gt_cases (N.of_nat (t_size t)) n) as [Hx|Hx]; [rewrite N.max_l by assumption; reflexivity|].
      exfalso. rewrite N.max_r in Hlt by lia.
      pose proof (normalize_min (N.of_nat (t_size t)) (t_cap t) ltac:(change (2 ^ 64)%N with (4 * 2 ^ 62)%N; lia) Hv ltac:(lia)). lia. }
    rewrite Hmax in *. set (m := NormalizeCapacity n) in *.
    assert (Hvm : valid_cap (N.to_nat m)) by (apply normalize_valid; lia).
    assert (Hdbl : 2 * t_cap t + 1 <= N.to_nat m).
    { destruct Hv as (a & Ha & HM), Hvm as (b & Hb & HM2). assert (a < b) by (apply (Nat.pow_lt_mono_r_iff 2); lia).
      assert (2 ^ S a <= 2 ^ b) by (apply Nat.pow_le_mono_r; lia). cbn [Nat.pow] in *. lia. }
    assert (Hbig : t_cap t <= CapacityToGrowth W (N.to_nat m)).
    { unfold CapacityToGrowth. destruct (Nat.eqb_spec W 8), (Nat.eqb_spec (N.to_nat m) 7); cbn [andb]; lia. }
    pose proof (cap_le_growth E (N.to_nat m)).
    destruct (resize_ok hash eqb E HE HK t m) as [[Hb _]|(u & Hr & Hu & Hnd & Hsu & Hcu & Hgu & Hpu & Hbu)].
    + right. apply pinv_tinv0. assumption.
    + assumption.
    + assumption.
    + lia.
    + auto.
    + right. exists u. split; [assumption|]. split; [|split; [assumption|split; [assumption|]]].
      2: { intros _. right. apply exact_fresh; rewrite ?Hcu, ?Hsu in *; first [assumption|lia]. }
      right. apply pinv_fresh; try assumption; [rewrite (Permutation_length Hpu); lia|rewrite Hcu; lia|rewrite Hcu, Hsu; assumption|].
      rewrite Hcu, N2Nat.id. assumption.
  - right. exists t. split; [reflexivity|]. split; [right; assumption|]. auto.
Qed.
Lemma preserve t n : pgood t -> t_size t <= t_cap t -> n <> 0%N -> (n < 2 ^ 62)%N ->
  (forall m, GrowthToLowerboundCapacity W n = Ok m -> no_wrap E (NormalizeCapacity m)) ->
  reserve hash E t n = BadAlloc \/
  exists t', reserve hash E t n = Ok t' /\ pgood t' /\ t_size t' = t_size t /\ elems (t_slots t') ≡ₚ elems (t_slots t) /\ (xgood t -> xgood t').
Proof.
  intros Hg Hsz Hn Hlt Hnw. unfold reserve.
  destruct (g2l_eq W n ltac:(lia) Hlt) as (m & Hm & Hge & Hm63 & Hcase). rewrite Hm. cbn [rbind].
  apply prehash; [assumption|assumption|lia|change (2 ^ 64)%N with (2 * 2 ^ 63)%N; lia|auto].
Qed.

(** ** one step *)
Definition not_erase (o : fop K V) : Prop := match o with FCall (OErase _) => False | _ => True end.
Definition FR (t : table) (st : list elt * nat) : Prop :=
  pgood t /\ elems (t_slots t) ≡ₚ fst st /\ t_size t = length (fst st) + snd st.
Lemma fexec_ok t st o : FR t st -> fop_ok E o -> t_size t <= t_cap t ->
  exists t' r st', fexec hash eqb E t o = Ok (t', r) /\ f_step eqb st o r st' /\ FR t' st' /\ (not_erase o -> xgood t -> xgood t').
Proof.
  destruct st as [m n]. intros (Hg & Hp & Hs) Ho Hsz. cbn [fst snd] in *. pose proof (pgood_dist t Hg) as Hd.
  assert (Hpres : forall k i e, t_slots t !! i = Some (Some e) -> eqb k (fst e) = true -> s_find eqb m k = Some e).
  { intros k i e Hi Hk. apply (s_find_in hash eqb HK); [eapply (distinct_perm eqb (ko_sym _ _ HK)); [exact Hp|exact Hd]| |assumption].
    eapply Permutation_in; [exact Hp|]. apply elems_in. eauto. }
  assert (Habs : forall k, absent eqb t k -> s_find eqb m k = None).
  { intros k Ha. apply s_find_none. intros e He. apply Ha. eapply Permutation_in; [symmetry; exact Hp|assumption]. }
  assert (Hpv : forall i e, t_slots t !! i = Some (Some e) -> pinv t) by (intros i e Hi; destruct Hg as [->|]; [discriminate|assumption]).
  destruct o as [[k v|k v|k|k| |c|c| |]|k]; cbn [fexec fop_ok f_step exec] in *.
  - destruct (present_or_absent eqb t k) as [(i & e & Hi & Hk)|Ha].
    + unfold emplace. rewrite (pfind_present t k i e Hg Hi Hk). cbn [rbind]. unfold deref. rewrite (load_some _ _ _ Hi). cbn [rbind of_option catch].
      exists t, (FOut (RInserted false e)), (m, n). split; [reflexivity|]. split; [|split; [repeat split; assumption|auto]]. split; [reflexivity|]. eexists. split; [reflexivity|].
      cbn [s_step]. rewrite (Hpres k i e Hi Hk). auto.
    + destruct (pemplace t k v Hg Ha Hsz) as [Hb|(t' & p & He & Hp' & Hsl & Hs' & Hpm & Hx)].
      * rewrite Hb. cbn [rbind catch]. exists t, (FOut RThrow), (m, n). split; [reflexivity|]. split; [|split; [repeat split; assumption|auto]]. split; [reflexivity|]. eexists. split; [reflexivity|].
        cbn [s_step]. rewrite (Habs k Ha). auto.
      * rewrite He. cbn [rbind]. unfold deref. rewrite (load_some _ _ _ Hsl). cbn [rbind of_option catch].
        exists t', (FOut (RInserted true (k, v))), ((k, v) :: m, n). split; [reflexivity|]. split.
        -- split; [reflexivity|]. eexists. split; [reflexivity|]. cbn [s_step]. rewrite (Habs k Ha). auto.
        -- split; [|auto]. split; [right; assumption|]. cbn [fst snd length]. split; [rewrite Hpm, Hp; reflexivity|lia].
  - unfold insert_or_assign. destruct (present_or_absent eqb t k) as [(i & e & Hi & Hk)|Ha].
    + unfold emplace. rewrite (pfind_present t k i e Hg Hi Hk). cbn [rbind].
      destruct (passign t i e v (Hpv i e Hi) Hi) as (t' & Has & Hp' & Hsl & Hs' & Hx). rewrite Has. cbn [rbind]. unfold deref.
      assert (Hi' : t_slots t' !! i = Some (Some (fst e, v))) by (rewrite Hsl; apply list_lookup_insert; apply lookup_lt_Some in Hi; assumption).
      rewrite (load_some _ _ _ Hi'). cbn [rbind of_option catch].
      exists t', (FOut (RInserted false (fst e, v))), (s_update eqb m k v, n). split; [reflexivity|]. split.
      * split; [reflexivity|]. eexists. split; [reflexivity|]. cbn [s_step]. rewrite (Hpres k i e Hi Hk). auto.
      * split; [|auto]. split; [right; assumption|]. cbn [fst snd]. split; [|unfold s_update; rewrite map_length; lia]. rewrite Hsl.
        destruct (elems_set (t_slots t) i e (fst e, v) Hi) as (l & Hp1 & Hp2). rewrite Hp2.
        rewrite <- (s_update_perm eqb _ _ k v Hp), (s_update_perm eqb _ _ k v Hp1). cbn [s_update map]. rewrite Hk.
        constructor. fold (s_update eqb l k v). rewrite s_update_absent; [reflexivity|].
        eapply (distinct_rest hash eqb HK); [|exact Hk]. eapply (distinct_perm eqb (ko_sym _ _ HK)); [exact Hp1|]. assumption.
    + destruct (pemplace t k v Hg Ha Hsz) as [Hb|(t' & p & He & Hp' & Hsl & Hs' & Hpm & Hx)].
      * rewrite Hb. cbn [rbind catch]. exists t, (FOut RThrow), (m, n). split; [reflexivity|]. split; [|split; [repeat split; assumption|auto]]. split; [reflexivity|]. eexists. split; [reflexivity|].
        cbn [s_step]. rewrite (Habs k Ha). auto.
      * rewrite He. cbn [rbind]. unfold deref. rewrite (load_some _ _ _ Hsl). cbn [rbind of_option catch].
        exists t', (FOut (RInserted true (k, v))), ((k, v) :: m, n). split; [reflexivity|]. split.
        -- split; [reflexivity|]. eexists. split; [reflexivity|]. cbn [s_step]. rewrite (Habs k Ha). auto.
        -- split; [|auto]. split; [right; assumption|]. cbn [fst snd length]. split; [rewrite Hpm, Hp; reflexivity|lia].
  - destruct (present_or_absent eqb t k) as [(i & e & Hi & Hk)|Ha].
    + rewrite (pfind_present t k i e Hg Hi Hk). cbn [rbind]. unfold deref. rewrite (load_some _ _ _ Hi). cbn [rbind of_option].
      exists t, (FOut (RFound (Some e))), (m, n). split; [reflexivity|]. split; [|split; [repeat split; assumption|auto]]. split; [reflexivity|]. eexists. split; [reflexivity|].
      cbn [s_step]. rewrite (Hpres k i e Hi Hk). auto.
    + rewrite (pfind_absent t k Hg Ha). cbn [rbind]. exists t, (FOut (RFound None)), (m, n). split; [reflexivity|]. split; [|split; [repeat split; assumption|auto]].
      split; [reflexivity|]. eexists. split; [reflexivity|]. cbn [s_step]. rewrite (Habs k Ha). auto.
  - unfold erase_key. destruct (present_or_absent eqb t k) as [(i & e & Hi & Hk)|Ha].
    + rewrite (pfind_present t k i e Hg Hi Hk). cbn [rbind]. destruct (perase t i e (Hpv i e Hi) Hi) as (t' & He & Hp' & Hs' & Hpm). rewrite He. cbn [rbind].
      assert (Hrest : s_erase eqb m k ≡ₚ elems (t_slots t')).
      { rewrite <- (s_erase_perm eqb _ _ k Hp), (s_erase_perm eqb _ _ k Hpm). cbn [s_erase List.filter]. rewrite Hk. cbn [negb].
        fold (s_erase eqb (elems (t_slots t')) k). rewrite s_erase_absent; [reflexivity|].
        eapply (distinct_rest hash eqb HK); [|exact Hk]. eapply (distinct_perm eqb (ko_sym _ _ HK)); [exact Hpm|]. assumption. }
      exists t', (FOut (RErased (Some e))), (s_erase eqb m k, n). split; [reflexivity|]. split.
      * split; [reflexivity|]. eexists. split; [reflexivity|]. cbn [s_step]. rewrite (Hpres k i e Hi Hk). auto.
      * split; [|intros []]. split; [right; assumption|]. cbn [fst snd]. split; [symmetry; assumption|]. rewrite (Permutation_length Hrest).
        pose proof (Permutation_length Hpm) as Hl. cbn [length] in Hl. rewrite (Permutation_length Hp) in Hl. lia.
    + rewrite (pfind_absent t k Hg Ha). cbn [rbind].
      assert (Hse : s_erase eqb m k = m) by (apply s_erase_absent; apply s_find_none; apply Habs; assumption).
      exists t, (FOut (RErased None)), (m, n). split; [reflexivity|]. split; [|split; [repeat split; assumption|auto]].
      split; [reflexivity|]. eexists. split; [reflexivity|]. cbn [s_step]. rewrite (Habs k Ha), Hse. auto.
  - destruct (pclear t Hg) as (t' & Hc & Hg' & Hs' & He & Hx). rewrite Hc. cbn [rbind]. exists t', (FOut RUnit), ([], 0). split; [reflexivity|]. split; [auto|].
    split; [|auto]. split; [assumption|]. cbn [fst snd length]. split; [rewrite He; reflexivity|lia].
  - destruct Ho as (Hn & Hn64 & Hnw). destruct (prehash t c Hg Hsz Hn Hn64 Hnw) as [Hb|(t' & Hr & Hg' & Hs' & Hpm & Hx)].
    + rewrite Hb. cbn [rbind catch]. exists t, (FOut RThrow), (m, n). split; [reflexivity|]. split; [|split; [repeat split; assumption|auto]]. split; [reflexivity|]. eexists. split; [reflexivity|]. cbn. auto.
    + rewrite Hr. cbn [rbind catch]. exists t', (FOut RUnit), (m, n). split; [reflexivity|]. split.
      * split; [reflexivity|]. eexists. split; [reflexivity|]. cbn. auto.
      * split; [|auto]. split; [assumption|]. cbn [fst snd]. split; [rewrite Hpm; assumption|lia].
  - destruct Ho as (Hn & Hn62 & Hnw). destruct (preserve t c Hg Hsz Hn Hn62 Hnw) as [Hb|(t' & Hr & Hg' & Hs' & Hpm & Hx)].
    + rewrite Hb. cbn [rbind catch]. exists t, (FOut RThrow), (m, n). split; [reflexivity|]. split; [|split; [repeat split; assumption|auto]]. split; [reflexivity|]. eexists. split; [reflexivity|]. cbn. auto.
    + rewrite Hr. cbn [rbind catch]. exists t', (FOut RUnit), (m, n). split; [reflexivity|]. split.
      * split; [reflexivity|]. eexists. split; [reflexivity|]. cbn. auto.
      * split; [|auto]. split; [assumption|]. cbn [fst snd]. split; [rewrite Hpm; assumption|lia].
  - cbn [rbind]. exists t, (FOut (RSize (t_size t))), (m, n). split; [reflexivity|]. split; [rewrite Hs; auto|split; [repeat split; assumption|auto]].
  - rewrite (ptraverse t Hg). cbn [rbind]. exists t, (FOut (RElems (elems (t_slots t)))), (m, n). split; [reflexivity|]. split; [|split; [repeat split; assumption|auto]].
    split; [reflexivity|]. eexists. split; [reflexivity|]. cbn. eauto.
  - destruct (present_or_absent eqb t k) as [(i & e & Hi & Hk)|Ha].
    + rewrite (pfind_present t k i e Hg Hi Hk). cbn [rbind]. unfold deref. rewrite (load_some _ _ _ Hi). cbn [rbind of_option].
      exists t, (FOut (RInserted false e)), (m, n). split; [reflexivity|]. split; [|split; [repeat split; assumption|auto]]. split; [reflexivity|]. rewrite (Hpres k i e Hi Hk). auto.
    + rewrite (pfind_absent t k Hg Ha). cbn [rbind]. unfold emplace_throwing. rewrite (pfind_absent t k Hg Ha). cbn [rbind].
      destruct (pprepare t k Hg Ha Hsz) as [Hb|(t1 & p & c & Hpr & Hp1 & Hs1 & Hpm & Hlt & Hff & Hc & Hor & Hpc & Hxt)].
      * rewrite Hb. cbn [rbind]. exists t, (FOut RThrow), (m, n). split; [reflexivity|]. split; [|split; [repeat split; assumption|auto]]. split; [reflexivity|]. rewrite (Habs k Ha). auto.
      * rewrite Hpr. cbn [rbind]. eexists _, FThrew, (m, S n). split; [reflexivity|]. split; [split; [reflexivity|]; rewrite (Habs k Ha); auto|].
        destruct (pfail t1 p c Hp1 Hc Hor Hpc) as [Hpf Hxf]. split.
        -- split; [right; exact Hpf|]. cbn [fst snd wth t_slots t_size]. split; [rewrite Hpm; assumption|lia].
        -- intros _ Hx. right. apply Hxf. exact (xgood_step t t1 Hx Hp1 Hxt).
Qed.
Lemma frun_ok os : forall t st, FR t st -> Forall (fop_ok E) os -> calm hash eqb E t os ->
  exists t' rs st', frun hash eqb E t os = Ok (t', rs) /\ f_run eqb st os rs st' /\ FR t' st'.
Proof.
  induction os as [|o os IH]; intros t st HR Ho Hc.
  - exists t, [], st. split; [reflexivity|]. split; [constructor|assumption].
  - inversion Ho as [|? ? Ho1 Ho2]; subst. cbn [calm] in Hc. destruct Hc as [Hsz Hc].
    destruct (fexec_ok t st o HR Ho1 Hsz) as (t1 & r & st1 & He & Hst & HR1 & _). rewrite He in Hc.
    destruct (IH t1 st1 HR1 Ho2 Hc) as (t2 & rs & st2 & Hr & Hfr & HR2).
    exists t2, (r :: rs), st2. cbn [frun]. rewrite He. cbn [rbind]. rewrite Hr. cbn [rbind].
    split; [reflexivity|]. split; [econstructor; eassumption|assumption].
Qed.
Lemma frun_noerase os : forall t st, FR t st -> xgood t -> Forall (fop_ok E) os -> Forall not_erase os ->
  exists t' rs st', frun hash eqb E t os = Ok (t', rs) /\ f_run eqb st os rs st' /\ FR t' st' /\ t_size t' <= t_cap t'.
Proof.
  induction os as [|o os IH]; intros t st HR Hx Ho Hn.
  - exists t, [], st. split; [reflexivity|]. split; [constructor|]. split; [assumption|apply xgood_size; assumption].
  - inversion Ho as [|? ? Ho1 Ho2]; subst. inversion Hn as [|? ? Hn1 Hn2]; subst.
    destruct (fexec_ok t st o HR Ho1 (xgood_size t Hx)) as (t1 & r & st1 & He & Hst & HR1 & Hx1).
    destruct (IH t1 st1 HR1 (Hx1 Hn1 Hx) Ho2 Hn2) as (t2 & rs & st2 & Hr & Hfr & HR2 & Hs2).
    exists t2, (r :: rs), st2. cbn [frun]. rewrite He. cbn [rbind]. rewrite Hr. cbn [rbind].
    split; [reflexivity|]. split; [econstructor; eassumption|]. split; assumption.
Qed.
Lemma FR_empty : FR empty_table ([], 0).
Proof using. split; [left; reflexivity|]. split; reflexivity. Qed.
End FailingProof.
