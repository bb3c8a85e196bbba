(** Whole caches refine one list of entries. *)
From stdpp Require Import list list_numbers.
From Coq Require Import Arith NArith ZArith Lia.
From Verif.Common Require Import Res Word.
From Verif.Swiss Require Import Group GroupSpec Model Probe Inv TableInv Resize Ops MapSpec History.
From Verif.Par Require Import Seq SeqProof Conc ConcMap ConcMapProof.
From Verif.Cache Require Import Lru LruSpec LruProof.
Local Open Scope nat_scope.
Local Open Scope res_scope.

Section LruCache.
Context {K V : Type} (hash : K -> N) (eqb : K -> K -> bool) (E : env) (lg : nat).
Context (HE : env_ok E) (HK : KeyOK hash eqb) (Hlg : lg <= 12).
Set Default Proof Using "HE HK".
Notation shard := (shard K V).
Notation good := (good hash eqb E).
Notation sub := (fun k : K => Seq.subidx lg (hash k)).
Notation part := (@part K V sub).
Notation sinv := (@sinv K V hash eqb E lg).
Notation num := (num_tables lg).
Notation l_step := (@l_step K V eqb sub).
Notation l_run := (@l_run K V eqb sub).

Definition size_arg_ok (r : N) : Prop := p_op_ok (K := K) (V := nid) E lg (OReserve r).
Definition lop_ok (o : lop K V) : Prop := match o with LReserve r => size_arg_ok r | _ => True end.
Record CR (c : cache K V) (max : nat) (m : list (K * V)) : Prop := {
  cr_max : c_max c = max;
  cr_len : length (c_shards c) = num;
  cr_shard : forall i s, c_shards c !! i = Some s -> sinv i s /\ vals s = part i m
}.

Lemma sum_parts (m : list (K * V)) n : (forall e, In e m -> sub (fst e) < n) -> sum_list_with (fun i => length (part i m)) (seq 0 n) = length m.
Proof using.
  clear. intros H. induction m as [|e m IH].
  - cbn. induction (seq 0 n); [reflexivity|]. cbn. assumption.
  - assert (Hlt : sub (fst e) < n) by (apply H; left; reflexivity). cbn [length]. rewrite <- IH by (intros x Hx; apply H; right; assumption). clear IH H.
    set (j := sub (fst e)) in *.
    assert (Hs : forall a k, sum_list_with (fun i => length (part i (e :: m))) (seq a k) =
              (if (a <=? j) && (j <? a + k) then 1 else 0) + sum_list_with (fun i => length (part i m)) (seq a k)).
    { intros a k. revert a. induction k as [|k IHk]; intros a; cbn [seq sum_list_with].
      - destruct (Nat.leb_spec a j), (Nat.ltb_spec j (a + 0)); cbn; lia.
      - rewrite IHk. rewrite part_cons. fold j. destruct (Nat.eqb_spec j a) as [He|He]; cbn [length];
          destruct (Nat.leb_spec a j), (Nat.ltb_spec j (a + S k)), (Nat.leb_spec (S a) j), (Nat.ltb_spec j (S a + k)); cbn [andb]; lia. }
    rewrite Hs. destruct (Nat.ltb_spec j (0 + n)); cbn; lia.
Qed.
Lemma in_part (m : list (K * V)) e i : In e (part i m) <-> In e m /\ sub (fst e) = i.
Proof using. unfold LruSpec.part. rewrite filter_In, Nat.eqb_eq. reflexivity. Qed.
Lemma size_ok c max m : CR c max m -> cache_size c = length m.
Proof.
  intros [_ Hl Hs]. rewrite <- (sum_parts m num) by (intros; apply subidx_lt). unfold cache_size. rewrite <- Hl.
  assert (H : forall l a, (forall i s, l !! i = Some s -> sinv (a + i) s /\ vals s = part (a + i) m) ->
    sum_list_with (fun s : shard => t_size (s_tab s)) l = sum_list_with (fun i => length (part i m)) (seq a (length l))); [|apply (H (c_shards c) 0 Hs)].
  induction l as [|s l IH]; intros a Ha; [reflexivity|]. cbn [length seq sum_list_with]. f_equal.
  - destruct (Ha 0 s eq_refl) as [Hi Hv]. rewrite Nat.add_0_r in *. rewrite <- Hv. unfold vals. rewrite map_length.
    rewrite (good_size hash eqb E _ (si_good _ _ _ _ _ _ Hi)). change (length (pe (s_tab s)) = length (s_list s)).
    rewrite (Permutation_length (si_refs _ _ _ _ _ _ Hi)), map_length. reflexivity.
  - apply IH. intros i s' Hi. rewrite Nat.add_succ_comm. apply (Ha (S i) s' Hi).
Qed.
Lemma reserve_ok c max m r : CR c max m -> size_arg_ok r -> exists c' b, cache_reserve hash E lg c r = Ok (c', b) /\ CR c' max m.
Proof using HE HK Hlg.
  intros [Hm Hl Hs] [Hr Hnw]. destruct (reserve_part E lg Hlg r Hr) as (q & Hq & Hq0 & Hq1).
  unfold cache_reserve, p_reserve. rewrite Hq. cbn [rbind]. unfold p_rehash.
  destruct (p_rehash_loop_ok hash eqb E HE HK (q / N.of_nat num) (map s_tab (c_shards c))) as (ps' & b & He & HF).
  - apply Forall_lookup. intros i t Hi. rewrite list_lookup_fmap in Hi. destruct (c_shards c !! i) as [s|] eqn:Hc; [|discriminate]. cbn in Hi. injection Hi as <-.
    apply (si_good _ _ _ _ _ _ (proj1 (Hs _ _ Hc))).
  - cbn. auto.
  - rewrite He. cbn [rbind]. eexists _, b. split; [reflexivity|]. pose proof (Forall2_length _ _ _ HF) as Hlen. rewrite map_length in Hlen. split; cbn [c_max c_shards].
    + assumption.
    + rewrite zip_with_length. lia.
    + intros i s Hi. apply lookup_zip_with_Some in Hi. destruct Hi as (t & s0 & -> & Ht & Hs0). destruct (Hs _ _ Hs0) as [[Hg Href Hnd Hid Hsub] Hv].
      destruct (Forall2_lookup_r _ _ _ _ _ HF Ht) as (t0 & Ht0 & Hgt & Hpt). rewrite list_lookup_fmap, Hs0 in Ht0. cbn in Ht0. injection Ht0 as <-.
      split; [|exact Hv]. split; cbn; try assumption. rewrite Hpt. assumption.
Qed.
Lemma cache_exec_ok f c max m o : CR c max m -> lop_ok o ->
  exists c' r m', cache_exec hash eqb E lg f c o = Ok (c', r) /\ l_step f max m o r m' /\ CR c' (l_max num max o) m'.
Proof using HE HK Hlg.
  intros HR Ho. pose proof HR as [Hm Hl Hs]. unfold cache_exec. destruct (lop_key o) as [k|] eqn:Hk.
  - assert (Hlt : sub k < length (c_shards c)) by (rewrite Hl; apply subidx_lt). destruct (lookup_lt_is_Some_2 _ _ Hlt) as [s Hsh].
    unfold load, of_option. cbn beta in Hsh. rewrite Hsh. cbn [rbind]. destruct (Hs _ _ Hsh) as [Hi Hv].
    destruct (shard_exec_ok hash eqb E lg HE HK f (c_max c) (sub k) s o k Hi Hk eq_refl) as (s' & r & He & Hi' & Hst). rewrite He. cbn [rbind].
    rewrite Hv in Hst. destruct (frame hash eqb lg HK _ _ _ _ _ _ k (sub k) Hk eq_refl Hst) as (m' & Hst' & Hp1 & Hp2).
    eexists _, r, m'. split; [reflexivity|]. rewrite <- Hm. split; [assumption|]. split; cbn [c_max c_shards].
    + destruct o; try reflexivity; discriminate.
    + rewrite insert_length. assumption.
    + intros i s2 Hi2. destruct (decide (i = sub k)) as [->|Hne].
      * rewrite list_lookup_insert in Hi2 by assumption. injection Hi2 as <-. auto.
      * rewrite list_lookup_insert_ne in Hi2 by congruence. destruct (Hs _ _ Hi2) as [? ->]. rewrite Hp2 by assumption. auto.
  - destruct o as [| | |n| |r| |]; try discriminate.
    + eexists _, _, m. split; [reflexivity|]. split; [split; reflexivity|]. split; cbn; auto.
    + eexists _, _, m. split; [reflexivity|]. split; [rewrite (size_ok _ _ _ HR); split; reflexivity|assumption].
    + destruct (reserve_ok _ _ _ r HR Ho) as (c' & b & -> & HR'). cbn [rbind]. eexists _, _, m. split; [reflexivity|]. split; [|assumption].
      split; [destruct b; auto|reflexivity].
Qed.
Lemma l_run_app f n max m h max1 m1 h2 max2 m2 : l_run f n max m h max1 m1 -> l_run f n max1 m1 h2 max2 m2 -> l_run f n max m (h ++ h2) max2 m2.
Proof using.
  intros H1 H2. induction H2 as [|max' m' h2 max3 m3 o r m4 Hr IH Hst]; [rewrite app_nil_r; assumption|].
  rewrite app_assoc. econstructor; [apply IH; assumption|assumption].
Qed.
Lemma cache_run_ok f c max m os : CR c max m -> Forall lop_ok os ->
  exists c' rs max' m', cache_run hash eqb E lg f c os = Ok (c', rs) /\ length rs = length os /\ l_run f num max m (zip os rs) max' m' /\ CR c' max' m'.
Proof using HE HK Hlg.
  intros HR Hos. revert c max m HR. induction Hos as [|o os Ho Hos IH]; intros c max m HR; cbn [cache_run].
  - exists c, [], max, m. split; [reflexivity|]. split; [reflexivity|]. split; [constructor|assumption].
  - destruct (cache_exec_ok f _ _ _ o HR Ho) as (c1 & r & m1 & -> & Hst & HR1). cbn [rbind].
    destruct (IH _ _ _ HR1) as (c2 & rs & max2 & m2 & -> & Hlen & Hrun & HR2). cbn [rbind]. exists c2, (r :: rs), max2, m2.
    split; [reflexivity|]. split; [cbn; lia|]. split; [|assumption]. cbn [zip zip_with].
    apply (l_run_app f num max m [(o, r)] (l_max num max o) m1 (zip os rs)); [|assumption]. change (l_run f num max m ([] ++ [(o, r)]) (l_max num max o) m1). econstructor; [constructor|assumption].
Qed.
Lemma cache_new_ok own r n : size_arg_ok r -> cache_new hash E lg own r n = Ok (None : option (cache K V)) \/
  exists c, cache_new hash E lg own r n = Ok (Some c) /\ CR c (n / num) [].
Proof using HE HK Hlg.
  intros Hr. destruct (reserve_ok (mkCache (replicate num (mkShard empty_table [] own 0)) (n / num)) (n / num) [] r) as (c' & b & He & HR).
  - split; cbn [c_max c_shards]; [reflexivity|apply replicate_length|]. intros i s Hi. apply lookup_replicate in Hi. destruct Hi as [-> _].
    split; [|reflexivity]. split; cbn; [left; reflexivity|reflexivity|constructor|contradiction|contradiction].
  - assumption.
  - unfold cache_new. unfold cache_reserve in He. cbn [c_shards c_max] in He. 
    assert (Hm : map (@s_tab K V) (replicate num (mkShard empty_table [] own 0)) = p_empty lg).
    { unfold p_empty. generalize num. intros k. induction k as [|k IH]; [reflexivity|]. cbn [replicate map]. rewrite IH. reflexivity. }
    rewrite Hm in He. destruct (p_exec_ok hash eqb E lg HE HK Hlg (p_empty lg : list (table K nid)) [] (OReserve r) (replicate_PR hash eqb E lg num eq_refl) Hr)
      as (ps0 & r0 & m0 & Hx & _ & HPR & _). cbn [p_exec] in Hx.
    destruct (p_reserve hash E lg r (p_empty lg)) as [[ps threw]| | | |]; cbn [rbind] in He |- *; try discriminate.
    cbn [rbind] in Hx. injection Hx as <- _. injection He as <- <-. destruct threw; [left; reflexivity|right]. eexists. split; [reflexivity|].
    destruct HR as [H1 H2 H3]. cbn [c_shards c_max] in *. 
    assert (Hz : zip_with (@with_tab K V) ps (replicate num (mkShard empty_table [] own 0)) = map (fun t => mkShard t [] own 0) ps).
    { rewrite <- (pg_len _ _ _ _ _ HPR). clear. induction ps as [|t ps IH]; [reflexivity|]. cbn. rewrite IH. reflexivity. }
    rewrite Hz in *. split; assumption.
Qed.
End LruCache.
