(** Property theorems C57 and C58: exceptions while a hash table is copied or rehashed. *)
From stdpp Require Import list.
From Coq Require Import Arith NArith ZArith Lia.
From Verif.Common Require Import Res Word.
From Verif.Swiss Require Import Group GroupSpec Model Probe Inv TableInv Resize Ops MapSpec History Reserve PropsTable.
From Verif.Swiss Require Import Multi MultiSpec MultiProof MultiHistory PropsMulti Life LifeProof PropsLife LifeThrow.
Local Open Scope nat_scope.
Local Open Scope res_scope.

Section Facts.
Context {K V : Type} (hash : K -> N) (eqb : K -> K -> bool) (E : env).
Notation elt := (K * V)%type.
Notation table := (table K V).
Notation heap := (list (option (N * list (option elt)))).

Lemma copy_t_all l : forall n (h : heap) x, length l <= n ->
  copy_loop_t hash E n l h x = let* (h1, x1) := copy_loop_h hash E l h x in Ok (h1, x1, false).
Proof.
  induction l as [|e l IH]; intros n h x Hn; cbn [copy_loop_t copy_loop_h]; [reflexivity|].
  destruct n as [|n]; [cbn in Hn; lia|].
  destruct (find_first_non_full E (o_ctrl x) (o_cap x) (hash (fst e))); cbn [rbind]; auto.
  destruct (set_ctrl E (o_ctrl x) (o_cap x) _ _); cbn [rbind]; auto.
  destruct (hconstruct h (o_blk x) _ e); cbn [rbind]; auto. apply IH. cbn in Hn. lia.
Qed.
Lemma copy_t_short l1 e l2 : forall (h : heap) x,
  copy_loop_t hash E (length l1) (l1 ++ e :: l2) h x =
  let* (h1, x1) := copy_loop_h hash E l1 h x in
  let* p := find_first_non_full E (o_ctrl x1) (o_cap x1) (hash (fst e)) in
  let* ctrl' := set_ctrl E (o_ctrl x1) (o_cap x1) p (H2 (hash (fst e))) in
  Ok (h1, mkObj ctrl' (o_blk x1) (o_size x1) (o_cap x1) (o_growth x1), true).
Proof.
  induction l1 as [|a l1 IH]; intros h x; cbn [copy_loop_t copy_loop_h length app]; [reflexivity|].
  destruct (find_first_non_full E (o_ctrl x) (o_cap x) (hash (fst a))); cbn [rbind]; auto.
  destruct (set_ctrl E (o_ctrl x) (o_cap x) _ _); cbn [rbind]; auto.
  destruct (hconstruct h (o_blk x) _ a); cbn [rbind]; auto.
Qed.

(* a full control byte over raw memory is fatal when the table is destroyed *)
Lemma destroy_bad ctrl b sz : forall is (h : heap) sl, NoDup is -> h !! b = Some (Some (sz, sl)) ->
  (forall i, In i is -> exists c s, ctrl !! i = Some c /\ sl !! i = Some s /\ (IsFull c = negb (is_raw s) \/ (IsFull c = true /\ s = None))) ->
  (exists i c, In i is /\ ctrl !! i = Some c /\ IsFull c = true /\ sl !! i = Some None) -> destroy_loop is ctrl b h = UB.
Proof.
  induction is as [|i is IH]; intros h sl Hnd Hb Hcl (i0 & c0 & Hin & Hc0 & Hf0 & Hs0); [destruct Hin|]. cbn [destroy_loop].
  inversion Hnd as [|? ? Hni Hnd']; subst. rewrite elem_of_list_In in Hni.
  destruct (Hcl i (or_introl eq_refl)) as (c & s & Hc & Hs & Hf). rewrite (load_some _ _ _ Hc). cbn [rbind].
  assert (Hrest : forall h' sl', h' !! b = Some (Some (sz, sl')) -> (forall j, j <> i -> sl' !! j = sl !! j) -> i0 <> i -> destroy_loop is ctrl b h' = UB).
  { intros h' sl' Hb' Hsame Hne. apply (IH h' sl' Hnd' Hb').
    - intros j Hj. rewrite Hsame by (intros ->; contradiction). apply Hcl. right. assumption.
    - exists i0, c0. destruct Hin as [->|Hin]; [contradiction|]. rewrite Hsame by assumption. auto. }
  destruct (IsFull c) eqn:HF.
  - destruct s as [e|].
    + assert (Hne : i0 <> i) by (intros ->; congruence).
      assert (Ht : take_slot sl i = Ok (e, <[i := None]> sl)).
      { unfold take_slot. rewrite (load_some _ _ _ Hs). cbn [rbind]. rewrite store_ok; [reflexivity|]. apply lookup_lt_is_Some; eauto. }
      rewrite (htake_eq _ _ _ _ Hb _ _ _ Ht). cbn [rbind]. eapply Hrest; [eapply hlook, Hb| |assumption].
      intros j Hj. apply list_lookup_insert_ne. auto.
    + unfold htake. rewrite (hblock_eq _ _ _ _ Hb). cbn [rbind]. unfold take_slot. rewrite (load_some _ _ _ Hs). reflexivity.
  - eapply Hrest; [exact Hb|auto|]. intros ->. congruence.
Qed.

Context (HE : env_ok E) (HK : KeyOK hash eqb).
Lemma copy_start (that : table) : tinv hash eqb E that ->
  rehash hash E (empty_table : table) (N.of_nat (t_cap that)) = BadAlloc \/
  exists t0 : table, rehash hash E empty_table (N.of_nat (t_cap that)) = Ok t0 /\ tinv0 hash eqb E t0 /\
    ndel (t_ctrl t0) (t_cap t0) = 0 /\ t_cap t0 = t_cap that /\ elems (t_slots t0) = [].
Proof.
  intros Ht. pose proof (tinv_cap _ _ _ that Ht) as Hv. pose proof (valid_cap_cases _ Hv) as Hcc.
  destruct (size_bound hash eqb E HE that Ht) as [Hsc Hc62].
  pose proof (normalize_cap _ Hv ltac:(lia)) as Hnorm.
  unfold rehash. cbn [t_cap t_size empty_table].
  destruct (N.eqb_spec (N.of_nat (t_cap that)) 0); [lia|]. cbn [andb orb].
  rewrite N.max_l by lia. rewrite Hnorm.
  destruct (N.ltb_spec (N.of_nat 0) (N.of_nat (t_cap that))); [|lia].
  pose proof (fits_no_wrap hash eqb E HE that (N.of_nat (t_cap that)) Ht ltac:(lia)) as Hnw.
  destruct (resize_tinv hash eqb E HE HK (empty_table : table) (N.of_nat (t_cap that))) as [[Hb Hbig]|(t0 & Hr & Ht0 & Hnd0 & Hsz0 & Hcap0 & Hel0)].
  - left. reflexivity.
  - rewrite Nat2N.id. assumption.
  - assumption.
  - cbn [t_size empty_table]. lia.
  - left. assumption.
  - right. exists t0. split; [assumption|]. split; [apply (tv_0 _ _ _ _ Ht0)|]. split; [assumption|].
    rewrite Nat2N.id in Hcap0. split; [assumption|]. apply Permutation_length in Hel0. apply nil_length_inv. exact Hel0.
Qed.

Lemma copy_t_ub n (h : heap) y (t : table) : owns E h y t -> good hash eqb E t -> n < o_size y ->
  copy_t hash E n h y = BadAlloc \/ copy_t hash E n h y = UB.
Proof.
  intros Ho Hg Hn. destruct (iterate_ok hash eqb E HE HK t Hg) as (is & _ & Htl & _ & _).
  pose proof (good_size hash eqb E t Hg) as Hsz. pose proof (good_dist hash eqb E t Hg) as Hdist.
  pose proof Ho as (_ & H2' & H3 & _). rewrite H2', Hsz in Hn.
  destruct Hg as [->|Ht]; [cbn in Hn; lia|]. pose proof (size_bound hash eqb E HE t Ht) as [Hsc _].
  unfold copy_t. rewrite H3.
  assert (Hce : clean (@empty_table K V)) by (split; [reflexivity|intros i Hi; cbn in Hi; lia]).
  pose proof (rehash_sim hash E h empty_obj empty_table (N.of_nat (t_cap t)) (owns_empty E h) Hce) as Hr. unfold sim0 in Hr.
  destruct (copy_start t Ht) as [Hb|(t0 & Hr0 & Ht0 & Hnd0 & Hcap0 & Hel0)].
  { rewrite Hb in Hr. rewrite Hr. left. reflexivity. }
  rewrite Hr0 in Hr. destruct Hr as (h0 & x0 & -> & Ho0 & Hs0). cbn [rbind].
  assert (Hoy : owns E h0 y t).
  { eapply owns_frame; [exact Ho|exact Hs0|]. intros b _ [Hm _]. apply Hm. reflexivity. }
  rewrite (view_ok _ _ _ _ Hoy). cbn [rbind]. rewrite Htl. cbn [rbind].
  set (l := elems (t_slots t)) in *.
  destruct (lookup_lt_is_Some_2 l n Hn) as [e He].
  pose proof (take_drop_middle l n e He) as Hspl.
  assert (Hl1 : length (take n l) = n) by (rewrite take_length; lia).
  pose proof (copy_t_short (take n l) e (drop (S n) l) h0 x0) as Hco. rewrite Hl1, Hspl in Hco. rewrite Hco.
  destruct (copy_loop_ok hash eqb E HE HK (take n l) t0 Ht0 Hnd0) as (t1 & Hcl & Ht1 & Hnd1 & Hsz1 & Hcap1 & Hgr1 & Hel1).
  { rewrite Hel0. cbn. rewrite <- Hspl in Hdist. eapply distinct_app_l. exact Hdist. }
  { rewrite Hel0. cbn [length]. rewrite Hl1, Hcap0. lia. }
  pose proof (copy_loop_sim hash E (take n l) h0 x0 t0 Ho0) as Hsim. unfold sim0 in Hsim. rewrite Hcl in Hsim.
  destruct Hsim as (h1 & x1 & -> & Ho1 & Hs1). cbn [rbind]. pose proof Ho1 as (I1 & I2 & I3 & I4 & I5 & I6). rewrite I1, I3.
  assert (Hlen : length (elems (t_slots t1)) < t_cap t1).
  { rewrite (Permutation_length Hel1), Hel0. cbn [app]. rewrite Hl1, Hcap1, Hcap0. lia. }
  destruct (ffnf_reach hash eqb E (eo_group _ HE) HK t1 (hash (fst e)) Ht1 Hlen) as (p & Hp & Hpc & (cp & Hcp0 & Hneg) & _).
  rewrite Hp. cbn [rbind].
  destruct (set_ctrl_ok E (eo_group _ HE) (t_ctrl t1) (t_cap t1) p (H2 (hash (fst e))) (ti_wfc _ _ _ _ Ht1) Hpc (H2_sb _)) as (ctrl' & Hset & _ & Hcp & Hoth & _).
  rewrite Hset. cbn [rbind]. right. unfold destroy_slots_h. cbn [o_cap o_ctrl o_blk].
  destruct (Nat.eqb_spec (t_cap t1) 0); [lia|].
  assert (H0 : o_cap x1 <> 0) by congruence.
  rewrite (destroy_bad ctrl' (o_blk x1) (alloc_size E (N.of_nat (o_cap x1))) (seq 0 (t_cap t1)) h1 (t_slots t1)); [reflexivity| |apply I6; assumption| |].
  - apply NoDup_ListNoDup, seq_NoDup.
  - intros i Hi. apply in_seq in Hi. destruct (tinv0_clean hash eqb E t1 Ht1) as [_ Hc].
    destruct (Hc i ltac:(lia)) as (c & s & G1 & G2 & G3). destruct (Nat.eq_dec i p) as [->|Hne].
    + exists (H2 (hash (fst e))), s. split; [assumption|]. split; [assumption|]. right.
      split; [unfold IsFull; pose proof (H2_range (hash (fst e))); apply Z.leb_le; lia|].
      rewrite (slot_none hash eqb E (eo_group _ HE) HK t1 p cp Ht1 Hpc Hcp0 ltac:(lia)) in G2. congruence.
    + exists c, s. rewrite Hoth by lia. auto.
  - exists p, (H2 (hash (fst e))). split; [apply in_seq; lia|]. split; [assumption|].
    split; [unfold IsFull; pose proof (H2_range (hash (fst e))); apply Z.leb_le; lia|].
    apply (slot_none hash eqb E (eo_group _ HE) HK t1 p cp Ht1 Hpc Hcp0 ltac:(lia)).
Qed.
End Facts.

Section Theorems.
Context (K V : Type) (hash : K -> N) (eqb : K -> K -> bool) (eeq : K * V -> K * V -> bool) (E : env).
Lemma program_state a b (os : list (mop K V)) h xs ns rs i y : real_env E -> KeyOK hash eqb -> EltOK eqb eeq ->
  Forall (mop_ok E a b) os -> mrun_h hash eqb eeq E [] (replicate a empty_obj) (replicate b None) os = Ok (h, xs, ns, rs) ->
  xs !! i = Some y -> exists t, owns E h y t /\ good hash eqb E t.
Proof.
  intros HE HK HQ Ho Hr Hy.
  destruct (mrun_sim hash eqb E eeq (real_env_ok E HE) HK HQ os [] (replicate a empty_obj) (replicate a empty_table) (replicate b None) (replicate a []))
    as (h' & xs' & ts & ns' & rs' & ms & _ & G2 & G3 & G4 & _); [apply Inv_start|apply start_ok|rewrite !replicate_length; assumption|].
  rewrite Hr in G2. injection G2 as <- <- <- <-. destruct (Inv_look _ _ _ _ _ _ G3 Hy) as (t & Ht & Hot).
  exists t. split; [assumption|]. apply R_good in G4. eapply Forall_lookup_1; eassumption.
Qed.
End Theorems.

(** C57 is false.  Let a program have built a table with [size] elements.  If constructing any of its copies throws
    (the n-th, for any n below the size), then copying the table is undefined behaviour: the control byte of the
    missing element says its slot is full, and the destructor of the unfinished copy destroys an object that was
    never constructed.  The only other possibility is that the table of the copy could not be allocated. *)
Theorem C57_copy_throws_refuted : forall (K V : Type) (hash : K -> N) (eqb : K -> K -> bool) (eeq : K * V -> K * V -> bool)
    (E : env) (a b : nat) (os : list (mop K V)) h xs ns rs i y n,
  real_env E -> KeyOK hash eqb -> EltOK eqb eeq -> Forall (mop_ok E a b) os ->
  mrun_h hash eqb eeq E [] (replicate a empty_obj) (replicate b None) os = Ok (h, xs, ns, rs) -> xs !! i = Some y ->
  n < o_size y ->
  copy_t hash E n h y = BadAlloc \/ copy_t hash E n h y = UB.
Proof.
  intros K V hash eqb eeq E a b os h xs ns rs i y n HE HK HQ Ho Hr Hy Hn.
  destruct (program_state K V hash eqb eeq E a b os h xs ns rs i y HE HK HQ Ho Hr Hy) as (t & Hot & Hg).
  eapply copy_t_ub; try eassumption. apply real_env_ok. assumption.
Qed.
Print Assumptions C57_copy_throws_refuted.
(** C57, the part that holds: if no construction throws, the copy is the one of C56.  Missing: every case in which
    one throws, where the claim is false. *)
Theorem C57_copy_partial : forall (K V : Type) (hash : K -> N) (eqb : K -> K -> bool) (eeq : K * V -> K * V -> bool)
    (E : env) (a b : nat) (os : list (mop K V)) h xs ns rs i y n,
  real_env E -> KeyOK hash eqb -> EltOK eqb eeq -> Forall (mop_ok E a b) os ->
  mrun_h hash eqb eeq E [] (replicate a empty_obj) (replicate b None) os = Ok (h, xs, ns, rs) -> xs !! i = Some y ->
  o_size y <= n ->
  copy_t hash E n h y = BadAlloc \/
  exists h' x', copy_t hash E n h y = Ok (h', Some x') /\ o_size x' = o_size y /\ o_cap x' = o_cap y /\
    (forall j, j < length h -> h' !! j = h !! j) /\
    forall t t', view h y = Ok t -> view h' x' = Ok t' -> omap id (t_slots t') ≡ₚ omap id (t_slots t).
Proof.
  intros K V hash eqb eeq E a b os h xs ns rs i y n HE0 HK HQ Ho Hr Hy Hn.
  destruct (program_state K V hash eqb eeq E a b os h xs ns rs i y HE0 HK HQ Ho Hr Hy) as (t & Hot & Hg).
  pose proof (real_env_ok E HE0) as HE. destruct (iterate_ok hash eqb E HE HK t Hg) as (is & _ & Htl & _ & _).
  pose proof (good_size hash eqb E t Hg) as Hsz. pose proof Hot as (_ & H2' & H3 & _).
  assert (Heq : copy_t hash E n h y = let* (h', x') := copy_h hash E h y in Ok (h', Some x')).
  { unfold copy_t, copy_h. pose proof (copy_sim hash E h y t Hot) as Hc. rewrite H3.
    assert (Hce : clean (@empty_table K V)) by (split; [reflexivity|intros j Hj; cbn in Hj; lia]).
    pose proof (rehash_sim hash E h empty_obj empty_table (N.of_nat (t_cap t)) (owns_empty E h) Hce) as Hrs. unfold sim0 in Hrs.
    destruct (copy_ok hash eqb E HE HK t Hg) as [[Hb _]|(t' & Hb & _)]; unfold copy in Hb.
    - destruct (rehash hash E empty_table (N.of_nat (t_cap t))) as [t0| | | |]; cbn [rbind] in Hb; try discriminate.
      + exfalso. rewrite Htl in Hb. cbn [rbind] in Hb. 
        destruct (copy_loop hash E (elems (t_slots t)) t0) eqn:Hcl; try discriminate. clear -Hcl.
        revert t0 Hcl. induction (elems (t_slots t)) as [|e l IH]; intros t0 Hcl; cbn [copy_loop] in Hcl; [discriminate|].
        destruct (find_first_non_full E (t_ctrl t0) (t_cap t0) (hash (fst e))) eqn:H1; cbn [rbind] in Hcl; try discriminate;
          [|eapply nba_ffnf, H1].
        destruct (set_ctrl E (t_ctrl t0) (t_cap t0) _ _) eqn:H2; cbn [rbind] in Hcl; try discriminate; [|eapply nba_set, H2].
        destruct (construct (t_slots t0) _ e) eqn:H3; cbn [rbind] in Hcl; try discriminate; [|eapply nba_construct, H3].
        eapply IH, Hcl.
      + rewrite Hrs. reflexivity.
    - destruct (rehash hash E empty_table (N.of_nat (t_cap t))) as [t0| | | |]; cbn [rbind] in Hb; try discriminate.
      destruct Hrs as (h0 & x0 & -> & Ho0 & Hs0). cbn [rbind].
      assert (Hoy : owns E h0 y t).
      { eapply owns_frame; [exact Hot|exact Hs0|]. intros c _ [Hm _]. apply Hm. reflexivity. }
      rewrite (view_ok _ _ _ _ Hoy). cbn [rbind]. rewrite Htl. cbn [rbind]. rewrite copy_t_all by lia.
      destruct (copy_loop_h hash E (elems (t_slots t)) h0 x0) as [[h1 x1]| | | |]; reflexivity. }
  rewrite Heq. pose proof (copy_sim hash E h y t Hot) as Hc. unfold sim0 in Hc.
  destruct (copy_ok hash eqb E HE HK t Hg) as [[Hb _]|(t' & Hb & Hg' & Hcap & Hs & Hel & _)]; rewrite Hb in Hc.
  - rewrite Hc. left. reflexivity.
  - destruct Hc as (h' & x' & -> & Ho' & Hst). cbn [rbind]. right. exists h', x'. split; [reflexivity|].
    pose proof Ho' as (_ & J2 & J3 & _). split; [congruence|]. split; [congruence|]. split.
    + intros j Hj. apply Hst; [assumption|apply not_mine_empty].
    + intros u u' Hu Hu'. rewrite (view_ok _ _ _ _ Hot) in Hu. rewrite (view_ok _ _ _ _ Ho') in Hu'. injection Hu as <-. injection Hu' as <-. exact Hel.
Qed.
Print Assumptions C57_copy_partial.
(** 12 elements, 3 of them erased; the constructor of the fifth copy throws *)
Definition ex_copy (n : nat) : res (nat * option nat) :=
  let* (h, xs, _, _) := mrun_h ex_hash N.eqb ex_eeq ex_env [] (replicate 3 empty_obj) (replicate 1 None) (take 15 ex_mops) in
  let* y := load xs 0 in
  let* (h', x') := copy_t ex_hash ex_env n h y in Ok (o_size y, match x' with Some x => Some (o_size x) | None => None end).
Example C57_example : ex_copy 4 = UB /\ ex_copy 9 = Ok (9, Some 9).
Proof. split; vm_compute; reflexivity. Qed.

(** C58, the part that holds: the exception is harmless when it comes from the first call of the hash function, and
    one from a later call only occurs when the table is rehashed; with enough successful calls an insertion is
    that of C56.  Missing: exceptions from the later calls, where the claim is false (below). *)
Section Enough.
Context {K V : Type} (hash : K -> N) (eqb : K -> K -> bool) (E : env).
Notation heap := (list (option (N * list (option (K * V))))).
Lemma resize_t_enough is : forall n oc ob nb cap (h : heap) ctrl h' c' r, length is <= n ->
  resize_loop_t hash E n is oc ob nb cap h ctrl = Ok (h', c', r) ->
  resize_loop_h hash E is oc ob nb cap h ctrl = Ok (h', c') /\ r <> None.
Proof.
  induction is as [|i is IH]; intros n oc ob nb cap h ctrl h' c' r Hn Hr; cbn [resize_loop_t resize_loop_h] in *.
  - injection Hr as <- <- <-. split; [reflexivity|discriminate].
  - ib Hr. cbn [rbind]. destruct (IsFull a); [|eapply IH; [|exact Hr]; cbn in Hn; lia].
    destruct n as [|n]; [cbn in Hn; lia|]. ib Hr. destruct a0 as [sz sl]. cbn [rbind]. ib Hr. cbn [rbind]. ib Hr. cbn [rbind].
    ib Hr. cbn [rbind]. ib Hr. cbn [rbind]. ib Hr. destruct a4 as [e' h1]. cbn [rbind]. ib Hr. cbn [rbind].
    eapply IH; [|exact Hr]. cbn in Hn. lia.
Qed.
Lemma drop_t_enough f : forall n b cap (h : heap) ctrl i h' c' r, f <= n ->
  drop_loop_t hash E n f b cap h ctrl i = Ok (h', c', r) ->
  drop_loop_h hash E f b cap h ctrl i = Ok (h', c') /\ r <> None.
Proof.
  induction f as [|f IH]; intros n b cap h ctrl i h' c' r Hn Hr; cbn [drop_loop_t drop_loop_h] in *; [discriminate|].
  destruct (i =? cap).
  { injection Hr as <- <- <-. split; [reflexivity|discriminate]. }
  ib Hr. cbn [rbind]. destruct (negb (IsDeleted a)); [eapply IH; [|exact Hr]; lia|].
  destruct n as [|n]; [lia|]. ib Hr. destruct a0 as [sz sl]. cbn [rbind]. ib Hr. cbn [rbind]. ib Hr. cbn [rbind]. ib Hr. cbn [rbind].
  destruct (_ =? _).
  - ib Hr. cbn [rbind]. eapply IH; [|exact Hr]. lia.
  - ib Hr. cbn [rbind]. destruct (IsEmpty a3).
    + ib Hr. cbn [rbind]. ib Hr. destruct a5. cbn [rbind]. ib Hr. cbn [rbind]. ib Hr. cbn [rbind]. eapply IH; [|exact Hr]. lia.
    + ib Hr. cbn [rbind]. ib Hr. destruct a5. cbn [rbind]. ib Hr. destruct a5. cbn [rbind]. ib Hr. cbn [rbind]. ib Hr. cbn [rbind].
      eapply IH; [|exact Hr]. lia.
Qed.
Lemma grow_t_enough n (h : heap) x h' x' r : 2 * o_cap x < n ->
  rehash_and_grow_t hash E n h x = Ok (h', x', r) -> rehash_and_grow_h hash E h x = Ok (h', x') /\ r <> None.
Proof.
  intros Hn. unfold rehash_and_grow_t, rehash_and_grow_h.
  assert (Hz : forall m, resize_t hash E n h x m = Ok (h', x', r) -> resize_h hash E h x m = Ok (h', x') /\ r <> None).
  { intros m. unfold resize_t, resize_h. destruct (_ <? _)%N; [discriminate|]. destruct (_ <? _)%N; [discriminate|]. cbn [halloc].
    intros Hr. ib Hr. destruct a as [[h2 ctrl] rest]. apply resize_t_enough in Eq as [-> Hne]; [|rewrite seq_length; lia]. cbn [rbind].
    destruct rest as [n'|]; [|contradiction]. ib Hr. cbn [rbind]. injection Hr as <- <- <-. split; [reflexivity|discriminate]. }
  destruct (o_cap x =? 0); [apply Hz|]. destruct (o_size x <=? _); [|apply Hz].
  unfold drop_deletes_t, drop_deletes_h. destruct (_ <? _); [discriminate|]. intros Hr. ib Hr. cbn [rbind]. ib Hr. destruct a0 as [[h2 c2] rest].
  apply drop_t_enough in Eq0 as [-> Hne]; [|lia]. cbn [rbind]. destruct rest as [n'|]; [|contradiction].
  injection Hr as <- <- <-. split; [reflexivity|discriminate].
Qed.
End Enough.
Theorem C58_hash_throws_partial : forall (K V : Type) (hash : K -> N) (eqb : K -> K -> bool) (E : env)
    (h h' : list (option (N * list (option (K * V))))) (x x' : obj) (k : K) (v : V) (n : nat) (threw : bool),
  emplace_t hash eqb E n h x k v = Ok (h', x', threw) ->
  (n = 0 -> threw = true /\ h' = h /\ x' = x) /\
  (0 < n -> o_growth x <> 0%N \/ 2 * o_cap x + 1 < n -> threw = false /\ exists p b, emplace_h hash eqb E h x k v = Ok (h', x', p, b)).
Proof.
  intros K V hash eqb E h h' x x' k v n threw He. destruct n as [|n]; cbn [emplace_t] in He.
  - injection He as <- <- <-. split; [auto|]. intros H. lia.
  - split; [discriminate|]. intros _ Hor. unfold emplace_h. ib He. cbn [rbind]. ib He. destruct a0 as [p|].
    { injection He as <- <- <-. cbn [rbind]. eauto. }
    cbn [rbind]. unfold prepare_insert_h. ib He. cbn [rbind]. ib He. cbn [rbind]. ib He. destruct a2 as [[h1 x1] rest].
    destruct ((o_growth x =? 0)%N && negb (IsDeleted a1)) eqn:Hg.
    + destruct Hor as [Hor|Hor]; [apply N.eqb_neq in Hor; rewrite Hor in Hg; discriminate|].
      apply grow_t_enough in Eq3 as [-> Hne]; [|lia]. cbn [rbind]. destruct rest as [n'|]; [|contradiction].
      ib He. cbn [rbind]. ib He. cbn [rbind]. ib He. destruct a4 as [h3 x3]. cbn [rbind]. injection He as <- <- <-. eauto.
    + injection Eq3 as <- <- <-. cbn [rbind]. ib He. assert (a2 = a0) by congruence. subst a2. ib He. cbn [rbind]. ib He. destruct a3 as [h3 x3]. cbn [rbind].
      injection He as <- <- <-. eauto.
Qed.
Print Assumptions C58_hash_throws_partial.
Example C58_example : let r := (let* (h, xs, _, _) := mrun_h ex_hash N.eqb ex_eeq ex_env [] [empty_obj] [] (map (MOne 0) (ins (nums 0 14))) in
  let* x := load xs 0 in let* (h1, x1, threw) := emplace_t ex_hash N.eqb ex_env 40 h x 99%N 99%N in Ok (threw, o_size x1, o_cap x1)) in
  r = Ok (false, 15, 31).
Proof. vm_compute. reflexivity. Qed.

(** C58 is false.  A map holds 14 elements; the 15th insertion makes it grow, and the hash function throws when it
    is called for the eighth old element.  The exception leaves the map with size() = 14 and 7 elements; the other
    7 are in a block that no map owns any more, and are still there after the map was destroyed. *)
Theorem C58_hash_throws_growing_refuted : exists (n : nat) h xs x rs h1 x1 l,
  mrun_h ex_hash N.eqb ex_eeq ex_env [] [empty_obj] [] (map (MOne 0) (ins (nums 0 14))) = Ok (h, xs, [], rs) /\ xs !! 0 = Some x /\
  emplace_t ex_hash N.eqb ex_env n h x 99%N 99%N = Ok (h1, x1, true) /\
  o_size x1 = 14 /\ (let* t := view h1 x1 in to_list ex_env t) = Ok l /\ length l = 7 /\
  exists h2, destroy_all ex_env h1 [x1] = Ok h2 /\ held h2 = [152%N] /\ length (alive h2) = 7.
Proof. exists 8. do 7 eexists. repeat (split; [vm_compute; reflexivity|]). eexists. repeat (split; [vm_compute; reflexivity|]). vm_compute. reflexivity. Qed.
Print Assumptions C58_hash_throws_growing_refuted.

(** The same when the table is rehashed in place, after erasures: the elements not yet placed are marked as erased.
    The map has size() = 7 but a traversal finds 3, and giving back its memory when it is destroyed is undefined in the
    model: objects in it were not destroyed. *)
Definition ex_tomb : list (mop N N) :=
  map (MOne 0) (ins (nums 0 14)) ++ map (fun k => MOne 0 (OErase k)) (nums 0 7).
Definition ip_hash (k : N) : N := if (k <? 50)%N then 0%N else (128 * 8)%N.
Theorem C58_hash_throws_in_place_refuted : exists (n : nat) h xs x rs h1 x1 l,
  mrun_h ip_hash N.eqb ex_eeq ex_env8 [] [empty_obj] [] ex_tomb = Ok (h, xs, [], rs) /\ xs !! 0 = Some x /\
  emplace_t ip_hash N.eqb ex_env8 n h x 99%N 99%N = Ok (h1, x1, true) /\
  o_size x1 = 7 /\ (let* t := view h1 x1 in to_list ex_env8 t) = Ok l /\ length l = 3 /\
  destroy_all ex_env8 h1 [x1] = UB.
Proof. exists 4. do 7 eexists. repeat (split; [vm_compute; reflexivity|]). vm_compute. reflexivity. Qed.
Print Assumptions C58_hash_throws_in_place_refuted.
