(** Both group implementations meet [GroupOK]. *)
From stdpp Require Import list.
From Coq Require Import NArith ZArith Lia Bool.
From Coq Require Import ZifyBool ZifyNat ZifyN.
From Verif.Common Require Import Word WordFacts.
From Verif.Swiss Require Import Group GroupSpec.
Ltac Zify.zify_post_hook ::= Z.div_mod_to_equations.
Local Open Scope N_scope.
Local Arguments N.pow : simpl never.
Local Arguments N.mul : simpl never.
Local Arguments N.add : simpl never.
Local Arguments N.sub : simpl never.
Local Arguments N.div : simpl never.
Local Arguments N.modulo : simpl never.
Local Arguments N.shiftl : simpl never.
Local Arguments N.shiftr : simpl never.
Local Arguments N.land : simpl never.

(** ** Masks representing a list of booleans: bit (i << s) + o is set iff the i-th boolean is. *)
Definition mask_rep (s o : N) (m : N) (bl : list bool) : Prop :=
  forall b, N.testbit m b = true <->
            exists i : nat, b = N.shiftl (N.of_nat i) s + o /\ bl !! i = Some true.

Lemma bm_iter_S f s m :
  bm_iter (S f) s m = if m =? 0 then [] else bm_lowest s m :: bm_iter f s (N.land m (m - 1)).
Proof. destruct m; reflexivity. Qed.

Section Rep.
Context (s o : N) (Ho : o < 2 ^ s).

Lemma pos_of_bit i : N.shiftr (N.shiftl i s + o) s = i.
Proof.
  rewrite N.shiftr_div_pow2, N.shiftl_mul_pow2.
  rewrite N.div_add_l by (apply N.pow_nonzero; lia). rewrite (N.div_small o) by assumption. lia.
Qed.
Lemma bit_mono i j : i < j -> N.shiftl i s + o < N.shiftl j s + o.
Proof.
  intros. rewrite !N.shiftl_mul_pow2.
  assert (2 ^ s <> 0) by (apply N.pow_nonzero; lia). nia.
Qed.

Lemma rep_zero m bl : mask_rep s o m bl -> (m = 0 <-> forall i, bl !! i <> Some true).
Proof.
  intros R. split.
  - intros -> i Hi. assert (N.testbit 0 (N.shiftl (N.of_nat i) s + o) = true) as H.
    { apply R. eauto. } rewrite N.bits_0 in H. discriminate.
  - intros H. apply N.bits_inj_0. intros b. destruct (N.testbit m b) eqn:E; [|reflexivity].
    apply R in E. destruct E as (i & _ & Hi). destruct (H i Hi).
Qed.

Lemma rep_lowest m bl : mask_rep s o m bl -> m <> 0 ->
  bl !! bm_lowest s m = Some true /\ forall j, (j < bm_lowest s m)%nat -> bl !! j <> Some true.
Proof.
  intros R Hm. pose proof (ctz_bit m Hm) as Hb. apply R in Hb. destruct Hb as (i & Hi & Hl).
  assert (Hlow : bm_lowest s m = i).
  { unfold bm_lowest. rewrite Hi, pos_of_bit. lia. }
  rewrite Hlow. split; [assumption|]. intros j Hj Hjt.
  assert (N.testbit m (N.shiftl (N.of_nat j) s + o) = true) as Hc by (apply R; eauto).
  rewrite ctz_below in Hc; [discriminate|]. rewrite Hi. apply bit_mono. lia.
Qed.

Lemma rep_iter fuel m bl i : mask_rep s o m bl -> (length bl <= fuel)%nat ->
  In i (bm_iter fuel s m) <-> bl !! i = Some true.
Proof.
  intros R Hlen.
  (* generalise: fuel bounds the number of true entries *)
  assert (G : forall fuel m bl, mask_rep s o m bl -> (length (List.filter id bl) <= fuel)%nat ->
              (In i (bm_iter fuel s m) <-> bl !! i = Some true)).
  { clear - Ho. intros fuel. induction fuel as [|f IH]; intros m bl R Hlen.
    - cbn. split; [tauto|]. intros Hi. exfalso.
      assert (In true (List.filter id bl)) as Hin.
      { apply filter_In. split; [|reflexivity]. apply elem_of_list_In.
        eapply elem_of_list_lookup_2; eassumption. }
      destruct (List.filter id bl); cbn in *; [tauto|lia].
    - rewrite bm_iter_S. destruct (N.eqb_spec m 0) as [Hz|Hz].
      + pose proof (proj1 (rep_zero _ _ R) Hz i). cbn. tauto.
      + pose proof (rep_lowest _ _ R Hz) as [Hl Hj]. set (a := bm_lowest s m) in *.
        assert (Halt : (a < length bl)%nat) by (eapply lookup_lt_Some; eassumption).
        assert (R' : mask_rep s o (N.land m (m - 1)) (<[a := false]> bl)).
        { intros b. rewrite land_pred_bits by assumption.
          assert (Hctz : ctz m = N.shiftl (N.of_nat a) s + o).
          { pose proof (ctz_bit m Hz) as Hb. apply R in Hb. destruct Hb as (i' & Hi & _).
            subst a. unfold bm_lowest. rewrite Hi, pos_of_bit, Nat2N.id. reflexivity. }
          rewrite Hctz. split.
          - intros Hb. apply andb_prop in Hb. destruct Hb as [Hb Hne]. apply R in Hb.
            destruct Hb as (i' & -> & Hi'). exists i'. split; [reflexivity|].
            rewrite list_lookup_insert_ne; [assumption|]. intros <-. rewrite N.eqb_refl in Hne. discriminate.
          - intros (i' & -> & Hi'). destruct (decide (a = i')) as [<-|Hne].
            { rewrite list_lookup_insert in Hi' by assumption. discriminate. }
            rewrite list_lookup_insert_ne in Hi' by assumption.
            apply andb_true_intro. split; [apply R; eauto|].
            destruct (N.eqb_spec (N.shiftl (N.of_nat i') s + o) (N.shiftl (N.of_nat a) s + o)) as [He|]; [|reflexivity].
            apply (f_equal (fun x => N.shiftr x s)) in He. rewrite !pos_of_bit in He by assumption. exfalso. apply Hne. lia. }
        specialize (IH _ _ R'). cbn [In]. rewrite IH.
        * destruct (decide (a = i)) as [->|Hne].
          { rewrite list_lookup_insert by assumption. tauto. }
          rewrite list_lookup_insert_ne by assumption. split; [intros [?|?]; [congruence|assumption]|tauto].
        * assert (length (List.filter id bl) = S (length (List.filter id (<[a:=false]> bl)))) as Hfl.
          { clear - Hl. revert Hl. generalize a. clear a. induction bl as [|x bl IHb]; intros [|a] Hl; cbn in *; try discriminate.
            - injection Hl as ->. reflexivity.
            - specialize (IHb a Hl). destruct x; cbn; [f_equal|]; exact IHb. }
          lia. }
  apply G; [assumption|]. etransitivity; [|exact Hlen].
  clear. induction bl as [|[] bl IH]; cbn; lia.
Qed.

Lemma rep_highest m bl : mask_rep s o m bl -> m <> 0 ->
  exists i, bl !! i = Some true /\ N.log2 m = N.shiftl (N.of_nat i) s + o /\
            forall j, (i < j)%nat -> bl !! j <> Some true.
Proof.
  intros R Hm. pose proof (N.bit_log2 m Hm) as Hb. apply R in Hb. destruct Hb as (i & Hi & Hl).
  exists i. split; [assumption|]. split; [assumption|]. intros j Hj Hjt.
  assert (N.testbit m (N.shiftl (N.of_nat j) s + o) = true) as Hc by (apply R; eauto).
  rewrite N.bits_above_log2 in Hc; [discriminate|]. rewrite Hi. apply bit_mono. lia.
Qed.
End Rep.

(** LeadingZeros when the mask occupies [n << s] bits of a [tb]-bit word *)
Lemma rep_leading tb sig s o m bl :
  o = 2 ^ s - 1 -> N.shiftl sig s <= tb -> mask_rep s o m bl -> length bl = N.to_nat sig -> m <> 0 ->
  (bm_leading tb sig s m < N.to_nat sig)%nat /\
  bl !! (N.to_nat sig - 1 - bm_leading tb sig s m)%nat = Some true /\
  forall j, (N.to_nat sig - 1 - bm_leading tb sig s m < j)%nat -> bl !! j <> Some true.
Proof.
  intros Ho Hs R Hlen Hm.
  assert (Hp : 2 ^ s <> 0) by (apply N.pow_nonzero; lia).
  assert (Ho' : o < 2 ^ s) by lia.
  destruct (rep_highest s o Ho' m bl R Hm) as (i & Hi & Hlog & Hafter).
  assert (Hilt : (i < length bl)%nat) by (eapply lookup_lt_Some; eassumption).
  set (extra := (tb - N.shiftl sig s)).
  assert (Hmlt : m < 2 ^ (N.shiftl sig s)).
  { apply N.log2_lt_pow2; [lia|]. rewrite Hlog. rewrite !N.shiftl_mul_pow2. nia. }
  assert (Hsh : wshl tb m extra = N.shiftl m extra).
  { unfold wshl. apply N.mod_small. rewrite N.shiftl_mul_pow2.
    replace tb with (N.shiftl sig s + extra) by (unfold extra; lia). rewrite N.pow_add_r.
    apply N.mul_lt_mono_pos_r; [|assumption]. apply N.neq_0_lt_0, N.pow_nonzero; lia. }
  assert (Hlead : bm_leading tb sig s m = (N.to_nat sig - 1 - i)%nat).
  { unfold bm_leading. fold extra. rewrite Hsh. unfold clz.
    rewrite N.size_log2 by (rewrite N.shiftl_eq_0_iff; assumption).
    rewrite N.log2_shiftl by assumption. rewrite Hlog.
    assert (Heq : tb - N.succ (N.shiftl (N.of_nat i) s + o + extra) = (sig - 1 - N.of_nat i) * 2 ^ s).
    { unfold extra. rewrite !N.shiftl_mul_pow2 in *.
      assert ((N.of_nat i + 1) * 2 ^ s <= sig * 2 ^ s) by (apply N.mul_le_mono_r; lia).
      rewrite N.mul_sub_distr_r, N.mul_sub_distr_r. lia. }
    rewrite Heq, N.shiftr_div_pow2, N.div_mul by assumption. lia. }
  rewrite Hlead. replace (N.to_nat sig - 1 - (N.to_nat sig - 1 - i))%nat with i by lia.
  split; [lia|]. split; assumption.
Qed.

(** ** SSE2 *)
Lemma movemask_bit l i : N.testbit (movemask l) (N.of_nat i) = default false (l !! i).
Proof.
  revert i. induction l as [|b l IH]; intros i; cbn [movemask].
  - rewrite N.bits_0. reflexivity.
  - replace (N.b2n b + 2 * movemask l) with (2 * movemask l + N.b2n b) by lia. destruct i as [|i].
    + cbn. apply N.testbit_0_r.
    + rewrite Nat2N.inj_succ, N.testbit_succ_r. rewrite IH. reflexivity.
Qed.
Lemma movemask_rep l : mask_rep 0 0 (movemask l) l.
Proof.
  intros b. assert (Eb : b = N.of_nat (N.to_nat b)) by lia. rewrite Eb.
  generalize (N.to_nat b). clear. intros n. rewrite movemask_bit. split.
  - intros H. exists n. rewrite N.shiftl_0_r, N.add_0_r. split; [reflexivity|].
    destruct (l !! n) as [[]|]; cbn in H; congruence.
  - intros (i & Hb & Hi). rewrite N.shiftl_0_r, N.add_0_r in Hb.
    replace n with i by lia. rewrite Hi. reflexivity.
Qed.
Lemma movemask_lt l : movemask l < 2 ^ N.of_nat (length l).
Proof.
  induction l as [|b l IH]; [cbn; lia|]. cbn [movemask length].
  rewrite Nat2N.inj_succ, N.pow_succ_r'. destruct b; cbn [N.b2n]; lia.
Qed.

Lemma map_lookup_true {A} (f : A -> bool) (l : list A) i :
  map f l !! i = Some true <-> exists c, l !! i = Some c /\ f c = true.
Proof.
  change (map f l) with (f <$> l). rewrite list_lookup_fmap.
  destruct (l !! i) as [c|]; cbn; split.
  - intros [= H]. eauto.
  - intros (c' & [= <-] & H). congruence.
  - discriminate.
  - intros (c & ? & _). discriminate.
Qed.

Lemma ctz_all_ones l : forall n, n = N.to_nat (ctz (movemask l + 1)) ->
  (n <= length l)%nat /\ (forall j, (j < n)%nat -> l !! j = Some true) /\
  (l !! n <> Some true).
Proof.
  induction l as [|b l IH]; intros n ->.
  - change (ctz (movemask [] + 1)) with 0. change (N.to_nat 0) with 0%nat. split; [cbn; lia|]. split; [intros; lia|discriminate].
  - cbn [movemask]. destruct b; cbn [N.b2n].
    + replace (1 + 2 * movemask l + 1) with (2 * (movemask l + 1)) by lia.
      assert (Hc : ctz (2 * (movemask l + 1)) = N.succ (ctz (movemask l + 1))).
      { destruct (movemask l + 1) as [|p] eqn:E; [lia|]. reflexivity. }
      rewrite Hc. destruct (IH _ eq_refl) as (H1 & H2 & H3).
      rewrite N2Nat.inj_succ. cbn [length]. split; [lia|]. split.
      * intros [|j] Hj; [reflexivity|]. cbn. apply H2. lia.
      * cbn. assumption.
    + replace (0 + 2 * movemask l + 1) with (2 * movemask l + 1) by lia.
      assert (Hc : ctz (2 * movemask l + 1) = 0).
      { destruct (movemask l); reflexivity. }
      rewrite Hc. change (N.to_nat 0) with 0%nat. split; [lia|]. split; [intros; lia|cbn; congruence].
Qed.

Lemma valid_byte c : valid_ctrl c -> (-128 <= c < 128)%Z.
Proof. unfold valid_ctrl. lia. Qed.

Lemma mm_sign_empty c : valid_ctrl c -> (mm_sign c <? 0)%Z = (c =? -128)%Z.
Proof. unfold valid_ctrl, mm_sign. intros H.
  destruct (c <? 0)%Z eqn:?; [destruct (c =? -128)%Z eqn:?|destruct (c =? 0)%Z eqn:?]; lia. Qed.

Lemma sse_empty_masks l : Forall valid_ctrl l -> sse_empty_mask_ssse3 l = sse_empty_mask l.
Proof.
  intros H. unfold sse_empty_mask_ssse3, sse_empty_mask, sse_match_mask. f_equal.
  apply map_ext_in. intros c Hc. apply mm_sign_empty.
  rewrite Forall_forall in H. apply H. apply elem_of_list_In. assumption.
Qed.

Lemma H01 : (0 < 2 ^ 0)%N.
Proof. reflexivity. Qed.
Lemma sse_em (b : bool) (l : list Z) : Forall valid_ctrl l ->
     (if b then sse_empty_mask_ssse3 else sse_empty_mask) l = movemask (map (fun c => c =? -128)%Z l).
Proof. intros Hl. destruct b; [rewrite sse_empty_masks by assumption|]; reflexivity. Qed.
Lemma sse_gok_width (b : bool) :(g_width (group_sse2 b) = 8%nat \/ g_width (group_sse2 b) = 16%nat)%Z.
Proof.
  right. reflexivity.
Qed.
Lemma sse_gok_match_complete (b : bool) :(forall l h i, length l = g_width (group_sse2 b) -> Forall valid_ctrl l -> 0 <= h < 128 ->
      l !! i = Some h -> In i (g_match (group_sse2 b) l h))%Z.
Proof.
  intros l h i Hlen Hv Hh Hi. cbn [group_sse2 g_match].
    apply (rep_iter 0 0 H01 32 _ _ i (movemask_rep _)).
    + rewrite map_length, Hlen. cbn. lia.
    + apply map_lookup_true. exists h. split; [assumption|]. lia.
Qed.
Lemma sse_gok_match_sound (b : bool) :(forall l h i, length l = g_width (group_sse2 b) -> Forall valid_ctrl l -> 0 <= h < 128 ->
      In i (g_match (group_sse2 b) l h) -> exists c, l !! i = Some c /\ 0 <= c)%Z.
Proof.
  intros l h i Hlen Hv Hh Hi. cbn [group_sse2 g_match] in Hi.
    apply (rep_iter 0 0 H01 32 _ _ i (movemask_rep _)) in Hi.
    + apply map_lookup_true in Hi. destruct Hi as (c & Hc & He). exists c. split; [assumption|]. lia.
    + rewrite map_length, Hlen. cbn. lia.
Qed.
Lemma sse_gok_any_empty (b : bool) :(forall l, length l = g_width (group_sse2 b) -> Forall valid_ctrl l ->
      (g_any_empty (group_sse2 b) l = true <-> exists i, l !! i = Some (-128)))%Z.
Proof.
  intros l Hlen Hv. cbn [group_sse2 g_any_empty]. rewrite sse_em by assumption.
    pose proof (rep_zero 0 0 _ _ (movemask_rep (map (fun c => c =? -128)%Z l))) as Hz.
    split.
    + intros Hn. destruct (decide (Exists (fun c => c = -128)%Z l)) as [Hex|Hnex].
      * apply Exists_exists in Hex. destruct Hex as (c & Hin & ->).
        apply elem_of_list_lookup in Hin. assumption.
      * exfalso. assert (movemask (map (fun c => c =? -128)%Z l) = 0) as E.
        { apply Hz. intros i Hi. apply map_lookup_true in Hi. destruct Hi as (c & Hc & He).
          apply Hnex, Exists_exists. exists c. split; [eapply elem_of_list_lookup_2; eassumption|lia]. }
        rewrite E in Hn. discriminate.
    + intros (i & Hi). destruct (N.eqb_spec (movemask (map (fun c => c =? -128)%Z l)) 0) as [E|]; [|reflexivity].
      exfalso. apply (proj1 Hz E i). apply map_lookup_true. eexists. split; [eassumption|reflexivity].
Qed.
Lemma sse_gok_empty_tz (b : bool) :(forall l, length l = g_width (group_sse2 b) -> Forall valid_ctrl l -> g_any_empty (group_sse2 b) l = true ->
      l !! g_empty_tz (group_sse2 b) l = Some (-128) /\
      forall j, (j < g_empty_tz (group_sse2 b) l)%nat -> l !! j <> Some (-128))%Z.
Proof.
  intros l Hlen Hv. cbn [group_sse2 g_any_empty g_empty_tz]. rewrite sse_em by assumption. intros Hne.
    assert (Hnz : movemask (map (fun c => c =? -128)%Z l) <> 0) by lia.
    destruct (rep_lowest 0 0 H01 _ _ (movemask_rep (map (fun c => c =? -128)%Z l)) Hnz) as [H1 H2]. split.
    + apply map_lookup_true in H1. destruct H1 as (c & Hc & He). rewrite Hc. f_equal. lia.
    + intros j Hj Hl. apply (H2 j Hj). apply map_lookup_true. eexists. split; [eassumption|reflexivity].
Qed.
Lemma sse_gok_empty_lz (b : bool) :(forall l, length l = g_width (group_sse2 b) -> Forall valid_ctrl l -> g_any_empty (group_sse2 b) l = true ->
      (g_empty_lz (group_sse2 b) l < g_width (group_sse2 b))%nat /\
      l !! (g_width (group_sse2 b) - 1 - g_empty_lz (group_sse2 b) l)%nat = Some (-128) /\
      forall j, (g_width (group_sse2 b) - 1 - g_empty_lz (group_sse2 b) l < j)%nat -> l !! j <> Some (-128))%Z.
Proof.
  intros l Hlen Hv. cbn [group_sse2 g_any_empty g_empty_lz g_width]. rewrite sse_em by assumption. intros Hne.
    assert (Hnz : movemask (map (fun c => c =? -128)%Z l) <> 0) by lia.
    destruct (rep_leading 32 16 0 0 _ _ eq_refl ltac:(vm_compute; discriminate) (movemask_rep (map (fun c => c =? -128)%Z l))
                ltac:(rewrite map_length, Hlen; reflexivity) Hnz) as (H1 & H2 & H3).
    change (N.to_nat 16) with 16%nat in *. split; [assumption|]. split.
    + apply map_lookup_true in H2. destruct H2 as (c & Hc & He). rewrite Hc. f_equal. lia.
    + intros j Hj Hl. apply (H3 j Hj). apply map_lookup_true. eexists. split; [eassumption|reflexivity].
Qed.
Lemma sse_gok_nonfull_some (b : bool) :(forall l i, length l = g_width (group_sse2 b) -> Forall valid_ctrl l ->
      g_first_nonfull (group_sse2 b) l = Some i ->
      (exists c, l !! i = Some c /\ c < -1) /\ forall j c, (j < i)%nat -> l !! j = Some c -> -1 <= c)%Z.
Proof.
  intros l i Hlen Hv. cbn [group_sse2 g_first_nonfull]. unfold mask_opt, sse_nonfull_mask.
    destruct (N.eqb_spec (movemask (map (fun c => c <? kSentinel)%Z l)) 0) as [|Hnz]; [discriminate|].
    intros [= <-].
    destruct (rep_lowest 0 0 H01 _ _ (movemask_rep (map (fun c => c <? kSentinel)%Z l)) Hnz) as [H1 H2]. split.
    + apply map_lookup_true in H1. destruct H1 as (c & Hc & He). exists c. unfold kSentinel in He. split; [assumption|lia].
    + intros j c Hj Hl. destruct (Z_lt_ge_dec c (-1)) as [Hlt|]; [|lia].
      exfalso. apply (H2 j Hj). apply map_lookup_true. exists c. unfold kSentinel. split; [assumption|lia].
Qed.
Lemma sse_gok_nonfull_none (b : bool) :(forall l, length l = g_width (group_sse2 b) -> Forall valid_ctrl l ->
      g_first_nonfull (group_sse2 b) l = None -> forall j c, l !! j = Some c -> -1 <= c)%Z.
Proof.
  intros l Hlen Hv. cbn [group_sse2 g_first_nonfull]. unfold mask_opt, sse_nonfull_mask.
    destruct (N.eqb_spec (movemask (map (fun c => c <? kSentinel)%Z l)) 0) as [Hz|]; [|discriminate].
    intros _ j c Hj. pose proof (proj1 (rep_zero 0 0 _ _ (movemask_rep (map (fun c => c <? kSentinel)%Z l))) Hz j) as Hn.
    destruct (Z_lt_ge_dec c (-1)) as [Hlt|]; [|lia].
    exfalso. apply Hn. apply map_lookup_true. exists c. unfold kSentinel. split; [assumption|lia].
Qed.
Lemma sse_gok_count_leading (b : bool) :(forall l, length l = g_width (group_sse2 b) -> Forall valid_ctrl l ->
      (g_count_leading (group_sse2 b) l <= g_width (group_sse2 b))%nat /\
      (forall j c, (j < g_count_leading (group_sse2 b) l)%nat -> l !! j = Some c -> c < -1) /\
      (forall c, l !! g_count_leading (group_sse2 b) l = Some c -> -1 <= c))%Z.
Proof.
  intros l Hlen Hv. cbn [group_sse2 g_count_leading g_width]. unfold sse_nonfull_mask.
    set (bl := map (fun c => c <? kSentinel)%Z l).
    assert (Hbl : length bl = 16%nat) by (unfold bl; rewrite map_length; exact Hlen).
    rewrite wadd_small.
    2:{ pose proof (movemask_lt bl) as Hml. rewrite Hbl in Hml. change (2 ^ N.of_nat 16) with 65536 in Hml.
        change (2 ^ 32) with 4294967296. lia. }
    destruct (ctz_all_ones bl _ eq_refl) as (H1 & H2 & H3). rewrite Hbl in H1.
    split; [assumption|]. split.
    + intros j c Hj Hc. specialize (H2 j Hj). apply map_lookup_true in H2. destruct H2 as (c' & Hc' & He).
      unfold kSentinel in He. assert (c = c') by congruence. lia.
    + intros c Hc. destruct (Z_lt_ge_dec c (-1)) as [Hlt|]; [|lia].
      exfalso. apply H3. apply map_lookup_true. exists c. unfold kSentinel. split; [assumption|lia].
Qed.
Lemma sse_gok_convert (b : bool) :(forall l, length l = g_width (group_sse2 b) -> Forall valid_ctrl l ->
      g_convert (group_sse2 b) l = map (fun c => if c <? 0 then -128 else -2) l)%Z.
Proof.
  intros l Hlen Hv. cbn [group_sse2 g_convert]. apply map_ext. intros c. unfold sse_convert_byte.
    destruct (c <? 0)%Z; reflexivity.
Qed.
Lemma sse2_ok b : GroupOK (group_sse2 b).
Proof.
  split.
  - apply sse_gok_width.
  - apply sse_gok_match_complete.
  - apply sse_gok_match_sound.
  - apply sse_gok_any_empty.
  - apply sse_gok_empty_tz.
  - apply sse_gok_empty_lz.
  - apply sse_gok_nonfull_some.
  - apply sse_gok_nonfull_none.
  - apply sse_gok_count_leading.
  - apply sse_gok_convert.
Qed.
