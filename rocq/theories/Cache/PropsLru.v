(** Property theorems about lru_cache and memoize_lru used from one thread (C18, C19, C21). *)
From stdpp Require Import list list_numbers.
From Coq Require Import Arith NArith ZArith Lia.
From Verif.Common Require Import Res Word.
From Verif.Swiss Require Import Group GroupSpec Model Probe Inv TableInv Resize Ops MapSpec History PropsTable.
From Verif.Par Require Import Seq SeqProof PropsSeq.
From Verif.Cache Require Import Lru LruSpec LruProof LruCache LruFacts.
Local Open Scope nat_scope.
Local Open Scope res_scope.

(** the submap of a key *)
Notation sub hash lg := (fun k => subidx lg (hash k)).
(** pairwise inequivalent keys *)
Fixpoint keys_distinct {K} (eqb : K -> K -> bool) (ks : list K) : Prop :=
  match ks with [] => True | k :: ks' => (forall x, In x ks' -> eqb k x = false) /\ keys_distinct eqb ks' end.
(** exists(k) answers b *)
Definition has {K V} hash (eqb : K -> K -> bool) E lg (f : K -> V) (c : cache K V) (k : K) (b : bool) : Prop :=
  exists c', cache_exec hash eqb E lg f c (LExists k) = Ok (c', LBool b).

Section Setup.
Context {K V : Type} (hash : K -> N) (eqb : K -> K -> bool) (E : env) (lg : nat).
Context (HE : env_ok E) (HK : KeyOK hash eqb) (Hlg : lg <= 12).
Notation num := (num_tables lg).
Lemma lru_setup own r n (f : K -> V) c os c' rs : size_arg_ok (K := K) E lg r -> cache_new hash E lg own r n = Ok (Some c) ->
  Forall (lop_ok E lg) os -> cache_run hash eqb E lg f c os = Ok (c', rs) ->
  exists max m, length rs = length os /\ l_run eqb (sub hash lg) f num (n / num) [] (zip os rs) max m /\ CR hash eqb E lg c' max m.
Proof using HE HK Hlg.
  intros Hr Hnew Ho Hrun. destruct (cache_new_ok (V := V) hash eqb E lg HE HK Hlg own r n Hr) as [H|(c0 & H & HR)]; [congruence|].
  assert (c0 = c) as -> by congruence. destruct (cache_run_ok hash eqb E lg HE HK Hlg f c _ [] os HR Ho) as (c2 & rs2 & max & m & H1 & H2 & H3 & H4).
  rewrite Hrun in H1. injection H1 as <- <-. eauto.
Qed.
Lemma has_iff (f : K -> V) (c : cache K V) max (m : list (K * V)) k b : CR hash eqb E lg c max m -> has hash eqb E lg f c k b <-> b = match s_find eqb m k with Some _ => true | None => false end.
Proof using HE HK Hlg.
  intros HR. destruct (cache_exec_ok hash eqb E lg HE HK Hlg f c max m (LExists k) HR I) as (c' & r & m' & He & [-> _] & _). unfold has. rewrite He. split.
  - intros (c2 & H). congruence.
  - intros ->. eauto.
Qed.
Lemma run_app (f : K -> V) c os1 os2 c2 rs : cache_run hash eqb E lg f c (os1 ++ os2) = Ok (c2, rs) ->
  exists c1 rs1 rs2, cache_run hash eqb E lg f c os1 = Ok (c1, rs1) /\ cache_run hash eqb E lg f c1 os2 = Ok (c2, rs2) /\ rs = rs1 ++ rs2.
Proof using.
  clear HK. revert c c2 rs. induction os1 as [|o os1 IH]; intros c c2 rs H; cbn [app cache_run] in *.
  - exists c, [], rs. auto.
  - destruct (cache_exec hash eqb E lg f c o) as [[c1 r]| | | |]; cbn [rbind] in *; try discriminate.
    destruct (cache_run hash eqb E lg f c1 (os1 ++ os2)) as [[c3 rs3]| | | |] eqn:H3; cbn [rbind] in *; try discriminate. injection H as <- <-.
    destruct (IH _ _ _ H3) as (c4 & rs4 & rs5 & -> & H5 & ->). cbn [rbind]. exists c4, (r :: rs4), rs5. auto.
Qed.
Lemma run_app_intro (f : K -> V) c os1 os2 c1 rs1 c2 rs2 : cache_run hash eqb E lg f c os1 = Ok (c1, rs1) -> cache_run hash eqb E lg f c1 os2 = Ok (c2, rs2) ->
  cache_run hash eqb E lg f c (os1 ++ os2) = Ok (c2, rs1 ++ rs2).
Proof using.
  clear HK. revert c rs1. induction os1 as [|o os1 IH]; intros c rs1 H H2; cbn [app cache_run] in *; [injection H as -> <-; exact H2|].
  destruct (cache_exec hash eqb E lg f c o) as [[c3 r]| | | |]; cbn [rbind] in *; try discriminate.
  destruct (cache_run hash eqb E lg f c3 os1) as [[c4 rs4]| | | |] eqn:H3; cbn [rbind] in *; try discriminate. injection H as -> <-.
  rewrite (IH _ _ H3 H2). reflexivity.
Qed.
Lemma find_cong (m : list (K * V)) a b : eqb a b = true -> s_find eqb m a = s_find eqb m b.
Proof using HK. intros H. induction m as [|e m IH]; [reflexivity|]. cbn. rewrite (eqb_cong hash eqb HK _ _ _ H), IH. reflexivity. Qed.
(* keys that are found are no more than entries *)
Lemma keys_bound (m : list (K * V)) i : distinct eqb m -> forall ks, keys_distinct eqb ks ->
  (forall k, In k ks -> sub hash lg k = i /\ s_find eqb m k <> None) -> length ks <= length (part (sub hash lg) i m).
Proof using HK.
  intros Hd ks Hks Hin.
  pose (l := map (fun k => (k, tt)) ks). assert (Hl : length ks = length l) by (unfold l; rewrite map_length; reflexivity). rewrite Hl.
  rewrite <- (map_length fst (part _ i m)). apply (pigeon (V := unit) hash eqb HK).
  - clear -Hks. unfold l. clear l. induction ks as [|k ks IH]; [exact I|]. destruct Hks as [H1 H2]. split; [|auto].
    intros e He. apply in_map_iff in He. destruct He as (x & <- & Hx). cbn. auto.
  - intros e He. unfold l in He. apply in_map_iff in He. destruct He as (k & <- & Hk). cbn. destruct (Hin k Hk) as [Hs Hf].
    destruct (s_find eqb m k) as [e|] eqn:He; [|congruence]. apply s_find_some in He. destruct He as [He Hke]. exists (fst e). split; [|assumption].
    apply in_map. apply in_part. split; [assumption|]. rewrite <- Hs. symmetry. apply (sub_cong hash eqb lg HK). assumption.
Qed.
End Setup.

(** C18.  A new lru_cache with any number 2^lg of submaps and any size n; any program of inserts, gets, exists,
    reserves, size() and set_cache_size(): no undefined behaviour, no endless loop, and the calls return what
    LruSpec.l_step says of a list of entries, most recently used first (inserts may throw std::bad_alloc). *)
Theorem C18_refines : forall (K V : Type) (hash : K -> N) (eqb : K -> K -> bool) (E : env) (lg own : nat) (r : N) (n : nat) (f : K -> V) c os,
  real_env E -> KeyOK hash eqb -> lg <= 12 -> size_arg_ok (K := K) E lg r -> cache_new hash E lg own r n = Ok (Some c) -> Forall (lop_ok E lg) os ->
  exists c' rs max m, cache_run hash eqb E lg f c os = Ok (c', rs) /\ length rs = length os /\
    l_run eqb (sub hash lg) f (num_tables lg) (n / num_tables lg) [] (zip os rs) max m.
Proof.
  intros K V hash eqb E lg own r n f c os HE0 HK Hlg Hr Hnew Ho. pose proof (real_env_ok E HE0) as HE.
  destruct (cache_new_ok (V := V) hash eqb E lg HE HK Hlg own r n Hr) as [H|(c0 & H & HR)]; [congruence|]. assert (c0 = c) as -> by congruence.
  destruct (cache_run_ok hash eqb E lg HE HK Hlg f c _ [] os HR Ho) as (c2 & rs2 & max & m & H1 & H2 & H3 & H4). eauto 10.
Qed.
Print Assumptions C18_refines.

(** C18, bound: if no size greater than b was ever set, no submap holds more than b / 2^lg keys, and size() is at
    most b. *)
Theorem C18_bound : forall (K V : Type) (hash : K -> N) (eqb : K -> K -> bool) (E : env) (lg own : nat) (r : N) (n b : nat) (f : K -> V) c os c' rs,
  real_env E -> KeyOK hash eqb -> lg <= 12 -> size_arg_ok (K := K) E lg r -> cache_new hash E lg own r n = Ok (Some c) -> Forall (lop_ok E lg) os ->
  cache_run hash eqb E lg f c os = Ok (c', rs) ->
  n <= b -> Forall (fun o => match o with LSetSize x => x <= b | _ => True end) os ->
  (forall i ks, keys_distinct eqb ks -> (forall k, In k ks -> subidx lg (hash k) = i /\ has hash eqb E lg f c' k true) -> length ks <= b / num_tables lg) /\
  (exists s, cache_exec hash eqb E lg f c' LSize = Ok (c', LNum s) /\ s <= b).
Proof.
  intros K V hash eqb E lg own r n b f c os c' rs HE0 HK Hlg Hr Hnew Ho Hrun Hn Hos. pose proof (real_env_ok E HE0) as HE.
  destruct (lru_setup hash eqb E lg HE HK Hlg own r n f c os c' rs Hr Hnew Ho Hrun) as (max & m & Hlen & Hl & HR).
  pose proof (num_pos lg) as Hnum.
  assert (Hb : forall i, length (part (sub hash lg) i m) <= b / num_tables lg).
  { intros i. refine (proj1 (run_bound hash eqb lg HK f _ _ _ _ _ i (b / num_tables lg) Hl _ _)); [apply Nat.div_le_mono; lia|].
    intros [o x] Hin. apply elem_of_list_In, elem_of_zip_l in Hin. rewrite Forall_forall in Hos. specialize (Hos o Hin). cbn. destruct o; try exact I. apply Nat.div_le_mono; lia. }
  split.
  - intros i ks Hd Hks. etransitivity; [|apply (Hb i)]. eapply (keys_bound hash eqb lg HK); [eapply fa_dist, (run_facts hash eqb lg HK); exact Hl|assumption|].
    intros k Hk. destruct (Hks k Hk) as [Hs Hh]. split; [assumption|]. apply (has_iff hash eqb E lg HE HK Hlg f c' max m) in Hh; [|assumption].
    destruct (s_find eqb m k); [discriminate|discriminate Hh].
  - exists (length m). split.
    + cbn. rewrite (size_ok hash eqb E lg HE HK _ _ _ HR). reflexivity.
    + rewrite <- (sum_parts hash lg m (num_tables lg)) by (intros; apply subidx_lt).
      assert (Hsum : forall a k, sum_list_with (fun i => length (part (sub hash lg) i m)) (seq a k) <= k * (b / num_tables lg)).
      { intros a k. revert a. induction k as [|k IH]; intros a; cbn [seq sum_list_with]; [lia|]. pose proof (Hb a). pose proof (IH (S a)). lia. }
      etransitivity; [apply Hsum|]. apply Nat.mul_div_le. lia.
Qed.
Print Assumptions C18_bound.

(** C18, values: what get(k) returns is the value of the last insert of k. *)
Theorem C18_get_latest : forall (K V : Type) (hash : K -> N) (eqb : K -> K -> bool) (E : env) (lg own : nat) (r : N) (n : nat) (f : K -> V) c os k c' rs v,
  real_env E -> KeyOK hash eqb -> lg <= 12 -> size_arg_ok (K := K) E lg r -> cache_new hash E lg own r n = Ok (Some c) -> Forall (lop_ok E lg) os ->
  cache_run hash eqb E lg f c (os ++ [LGet k]) = Ok (c', rs ++ [LVal (Some v)]) ->
  latest eqb (zip os rs) k v.
Proof.
  intros K V hash eqb E lg own r n f c os k c' rs v HE0 HK Hlg Hr Hnew Ho Hrun. pose proof (real_env_ok E HE0) as HE.
  apply run_app in Hrun. destruct Hrun as (c1 & rs1 & rs2 & H1 & H2 & Hrs).
  destruct (lru_setup hash eqb E lg HE HK Hlg own r n f c os c1 rs1 Hr Hnew Ho H1) as (max & m & Hlen & Hl & HR).
  destruct (cache_exec_ok hash eqb E lg HE HK Hlg f c1 max m (LGet k) HR I) as (c2 & r2 & m' & He & Hst & _).
  cbn [cache_run] in H2. rewrite He in H2. cbn [rbind] in H2. injection H2 as <- <-. apply app_inj_tail in Hrs. destruct Hrs as [-> <-].
  cbn [l_step] in Hst. destruct (s_find eqb m k) as [e|] eqn:Hf; [|destruct Hst; discriminate]. destruct Hst as [[= ->] _].
  apply s_find_some in Hf. destruct Hf as [Hin Hk]. apply (latest_cong hash eqb HK _ (fst e)); [rewrite (ko_sym _ _ HK); assumption|].
  eapply fa_value; [eapply (run_facts hash eqb lg HK); exact Hl|assumption].
Qed.
Print Assumptions C18_get_latest.

(** C18, eviction: if the call o makes x disappear, then o adds a new key to the submap of x, and every key y left
    in that submap was inserted or successfully read after the last time x was. *)
Theorem C18_evicts_least_recent : forall (K V : Type) (hash : K -> N) (eqb : K -> K -> bool) (E : env) (lg own : nat) (r : N) (n : nat) (f : K -> V) c os o c1 rs1 c2 r2 x,
  real_env E -> KeyOK hash eqb -> lg <= 12 -> size_arg_ok (K := K) E lg r -> cache_new hash E lg own r n = Ok (Some c) -> Forall (lop_ok E lg) (os ++ [o]) ->
  cache_run hash eqb E lg f c os = Ok (c1, rs1) -> cache_exec hash eqb E lg f c1 o = Ok (c2, r2) ->
  has hash eqb E lg f c1 x true -> has hash eqb E lg f c2 x false ->
  (exists k, lop_key o = Some k /\ has hash eqb E lg f c1 k false /\ subidx lg (hash k) = subidx lg (hash x)) /\
  forall y, has hash eqb E lg f c2 y true -> subidx lg (hash y) = subidx lg (hash x) -> used_after eqb (zip os rs1 ++ [(o, r2)]) x y.
Proof.
  intros K V hash eqb E lg own r n f c os o c1 rs1 c2 r2 x HE0 HK Hlg Hr Hnew Ho H1 H2 Hx1 Hx2. pose proof (real_env_ok E HE0) as HE.
  apply Forall_app in Ho. destruct Ho as [Ho1 Ho2]. inversion Ho2 as [|? ? Ho3 _]; subst.
  destruct (lru_setup hash eqb E lg HE HK Hlg own r n f c os c1 rs1 Hr Hnew Ho1 H1) as (max & m & Hlen & Hl & HR).
  destruct (cache_exec_ok hash eqb E lg HE HK Hlg f c1 max m o HR Ho3) as (c3 & r3 & m' & He & Hst & HR'). rewrite H2 in He. injection He as <- <-.
  apply (has_iff hash eqb E lg HE HK Hlg f c1 max m) in Hx1; [|assumption]. apply (has_iff hash eqb E lg HE HK Hlg f c2 (l_max (num_tables lg) max o) m') in Hx2; [|eassumption].
  destruct (s_find eqb m x) as [e|] eqn:Hfx; [|discriminate]. destruct (s_find eqb m' x) eqn:Hfx'; [discriminate|].
  split.
  - destruct (run_evict hash eqb lg HK f _ _ _ _ m o r2 m' x x e Hl Hst Hfx Hfx') as [(k & Hk & Hkn & Hks) _]. exists k. split; [assumption|]. split; [|assumption].
    apply (has_iff hash eqb E lg HE HK Hlg f c1 max m); [assumption|]. rewrite Hkn. reflexivity.
  - intros y Hy Hys. apply (has_iff hash eqb E lg HE HK Hlg f c2 (l_max (num_tables lg) max o) m') in Hy; [|eassumption].
    eapply (run_evict hash eqb lg HK f _ _ _ _ m o r2 m' x y e Hl Hst Hfx Hfx'); [|assumption]. destruct (s_find eqb m' y); [discriminate|discriminate Hy].
Qed.
Print Assumptions C18_evicts_least_recent.

(** C18, what is kept: a key inserted or read successfully by the call o, with fewer than n / 2^lg other keys of its
    submap used since, is found by get, with the value of its last insert. *)
Theorem C18_keeps_recent : forall (K V : Type) (hash : K -> N) (eqb : K -> K -> bool) (E : env) (lg own : nat) (r : N) (n : nat) (f : K -> V) c os1 o os2 k c' rs1 x rs2 ks,
  real_env E -> KeyOK hash eqb -> lg <= 12 -> size_arg_ok (K := K) E lg r -> cache_new hash E lg own r n = Ok (Some c) -> Forall (lop_ok E lg) (os1 ++ o :: os2) ->
  Forall (fun o => match o with LSetSize _ | LCall _ => False | _ => True end) (os1 ++ o :: os2) ->
  cache_run hash eqb E lg f c (os1 ++ o :: os2) = Ok (c', rs1 ++ x :: rs2) -> length rs1 = length os1 ->
  uses eqb (o, x) k = true ->
  length ks < n / num_tables lg ->
  (forall d y, In d (zip os2 rs2) -> uses eqb d y = true -> subidx lg (hash y) = subidx lg (hash k) -> eqb y k = false -> exists z, In z ks /\ eqb y z = true) ->
  exists c2 v, cache_exec hash eqb E lg f c' (LGet k) = Ok (c2, LVal (Some v)) /\ latest eqb (zip (os1 ++ o :: os2) (rs1 ++ x :: rs2)) k v.
Proof.
  intros K V hash eqb E lg own r n f c os1 o os2 k c' rs1 x rs2 ks HE0 HK Hlg Hr Hnew Ho Hfix Hrun Hlen1 Huse Hks Hset. pose proof (real_env_ok E HE0) as HE.
  destruct (lru_setup hash eqb E lg HE HK Hlg own r n f c _ c' _ Hr Hnew Ho Hrun) as (max & m & Hlen & Hl & HR).
  assert (Hnoset : forall d, In d (zip (os1 ++ o :: os2) (rs1 ++ x :: rs2)) -> match fst d with LSetSize _ | LCall _ => False | _ => True end).
  { intros [o1 x1] Hin. apply elem_of_list_In, elem_of_zip_l in Hin. rewrite Forall_forall in Hfix. apply (Hfix _ Hin). }
  assert (Hmax : max = n / num_tables lg).
  { eapply (fixed_max hash eqb lg); [exact Hl|]. intros d Hd. specialize (Hnoset d Hd). destruct (fst d); auto. }
  pose proof Hl as Hl0. rewrite zip_with_app in Hl by (symmetry; assumption). cbn [zip_with] in Hl.
  assert (Hsub : forall d, In d ((o, x) :: zip os2 rs2) -> In d (zip (os1 ++ o :: os2) (rs1 ++ x :: rs2))).
  { intros d Hd. rewrite zip_with_app by (symmetry; assumption). apply in_or_app. right. exact Hd. }
  assert (Hf : s_find eqb m k <> None).
  { eapply (run_kept hash eqb lg HK f _ _ _ (o, x) (zip os2 rs2) max m k ks (n / num_tables lg)); [exact Hl| |assumption|lia| |assumption|exact Hset].
    - intros d Hd. specialize (Hnoset d (Hsub d Hd)). destruct (fst d); auto.
    - intros d Hd. specialize (Hnoset d (Hsub d Hd)). destruct (fst d); auto. contradiction. }
  destruct (cache_exec_ok hash eqb E lg HE HK Hlg f c' max m (LGet k) HR I) as (c2 & r2 & m' & He & Hst & _). cbn [l_step] in Hst.
  destruct (s_find eqb m k) as [e|] eqn:Hfe; [|congruence]. destruct Hst as [-> _]. exists c2, (snd e). split; [assumption|].
  apply s_find_some in Hfe. destruct Hfe as [Hin Hk]. apply (latest_cong hash eqb HK _ (fst e)); [rewrite (ko_sym _ _ HK); assumption|].
  eapply fa_value; [eapply (run_facts hash eqb lg HK); exact Hl0|assumption].
Qed.
Print Assumptions C18_keeps_recent.

(** ** Examples *)
(** reserve(4) and reserve(40): size_t(4 * 1.1f) = 4, size_t(40 * 1.1f) = 44 *)
Definition lru_env (r : N) (lg n : nat) : option (cache N N) :=
  match cache_new exp_hash ex_env lg 0 r n with Ok x => x | _ => None end.
Definition lru_outs (r : N) (lg n : nat) (os : list (lop N N)) : list (lout N) :=
  match lru_env r lg n with
  | Some c => match cache_run exp_hash N.eqb ex_env lg (fun k => k * k)%N c os with Ok (_, rs) => rs | _ => [] end
  | None => []
  end.
Lemma ex_arg r lg : (match p_reserve_arg ex_env lg r with Ok m => (NormalizeCapacity (m / N.of_nat (num_tables lg)) <? 2 ^ 40)%N | _ => false end) = true ->
  (r < 2 ^ 62)%N -> size_arg_ok (K := N) ex_env lg r.
Proof.
  intros H Hr. split; [assumption|]. intros m Hm. rewrite Hm in H. apply N.ltb_lt in H. unfold no_wrap. set (x := NormalizeCapacity _) in *. clearbody x.
  change (N.of_nat (g_width (e_group ex_env))) with 16%N. change (2 ^ e_align_log ex_env)%N with 8%N. change (e_slot_size ex_env) with 8%N.
  change (2 ^ 40)%N with 1099511627776%N in H. change (2 ^ 64)%N with 18446744073709551616%N. lia.
Qed.

(** C18 is not vacuous: two submaps of two entries; 0 and 2 are in submap 0; get(0) saves 0 from eviction by 4. *)
Example C18_example : exists c c1 rs1 c2, size_arg_ok (K := N) ex_env 1 4 /\ cache_new exp_hash ex_env 1 0 4 4 = Ok (Some c) /\
  cache_run exp_hash N.eqb ex_env 1 (fun k => k) c [LInsert 0 10; LInsert 1 11; LInsert 2 12; LInsert 0 20; LGet 2; LGet 0]%N = Ok (c1, rs1) /\
  last rs1 = Some (LVal (Some 20%N)) /\ cache_exec exp_hash N.eqb ex_env 1 (fun k => k) c1 (LInsert 4 14)%N = Ok (c2, LUnit) /\
  has exp_hash N.eqb ex_env 1 (fun k => k) c1 2%N true /\ has exp_hash N.eqb ex_env 1 (fun k => k) c2 2%N false /\
  has exp_hash N.eqb ex_env 1 (fun k => k) c2 0%N true /\ has exp_hash N.eqb ex_env 1 (fun k => k) c2 1%N true.
Proof.
  destruct (lru_env 4 1 4) as [c|] eqn:Hc; [|vm_compute in Hc; discriminate]. exists c.
  assert (Hn : cache_new exp_hash ex_env 1 0 4 4 = Ok (Some c)).
  { unfold lru_env in Hc. destruct (cache_new exp_hash ex_env 1 0 4 4); congruence. }
  vm_compute in Hc. injection Hc as <-. do 3 eexists.
  split; [apply ex_arg; [vm_compute; reflexivity|reflexivity]|]. split; [exact Hn|]. split; [vm_compute; reflexivity|]. split; [vm_compute; reflexivity|].
  split; [vm_compute; reflexivity|]. repeat split; eexists; vm_compute; reflexivity.
Qed.

(** The bound does not follow set_cache_size down: a cache of 8, full, set to 4; size() stays 8 however many
    entries are inserted after that (each insertion evicts at most one). *)
Theorem C18_shrink_refuted : exists (os : list (lop N N)) c c' rs, size_arg_ok (K := N) ex_env 0 8 /\ cache_new exp_hash ex_env 0 0 8 8 = Ok (Some c) /\
  cache_run exp_hash N.eqb ex_env 0 (fun k => k) c (os ++ [LSetSize 4; LInsert 100 0; LInsert 101 0; LInsert 102 0; LInsert 103 0; LInsert 104 0; LSize]%N) = Ok (c', rs) /\
  last rs = Some (LNum 8).
Proof.
  exists (map (fun k => LInsert k k) (nums 0 8)). destruct (lru_env 8 0 8) as [c|] eqn:Hc; [|vm_compute in Hc; discriminate]. exists c.
  assert (Hn : cache_new exp_hash ex_env 0 0 8 8 = Ok (Some c)).
  { unfold lru_env in Hc. destruct (cache_new exp_hash ex_env 0 0 8 8); congruence. }
  vm_compute in Hc. injection Hc as <-. do 2 eexists. split; [apply ex_arg; [vm_compute; reflexivity|reflexivity]|]. split; [exact Hn|].
  split; [vm_compute; reflexivity|]. vm_compute. reflexivity.
Qed.
Print Assumptions C18_shrink_refuted.

(** ** C19 *)
(** C19 is false for every key of every cache: get(k) on a copy, for a key that the source holds, splices a node
    of the source's list (undefined behaviour). *)
Theorem C19_copy_refuted : forall (K V : Type) (hash : K -> N) (eqb : K -> K -> bool) (E : env) (lg own own' : nat) (r : N) (n : nat) (f : K -> V) c os c1 rs c2 k,
  real_env E -> KeyOK hash eqb -> lg <= 12 -> size_arg_ok (K := K) E lg r -> cache_new hash E lg own r n = Ok (Some c) -> Forall (lop_ok E lg) os ->
  cache_run hash eqb E lg f c os = Ok (c1, rs) -> cache_copy hash E lg own' c1 = Ok (Some c2) -> has hash eqb E lg f c1 k true ->
  has hash eqb E lg f c2 k true /\ cache_exec hash eqb E lg f c2 (LGet k) = UB /\ forall v, cache_exec hash eqb E lg f c2 (LInsert k v) = UB.
Proof.
  intros K V hash eqb E lg own own' r n f c os c1 rs c2 k HE0 HK Hlg Hr Hnew Ho Hrun Hcopy Hhas. pose proof (real_env_ok E HE0) as HE.
  destruct (lru_setup hash eqb E lg HE HK Hlg own r n f c os c1 rs Hr Hnew Ho Hrun) as (max & m & Hlen & Hl & HR).
  apply (has_iff hash eqb E lg HE HK Hlg f c1 max m) in Hhas; [|assumption]. destruct HR as [Hmax Hlen1 Hs].
  unfold cache_copy in Hcopy.
  destruct (p_copy_ok hash eqb E HE HK (map (@s_tab K V) (c_shards c1)) (p_empty lg)) as (q & Hq & new & Hln & Hpc & HF).
  - apply Forall_lookup. intros i t Hi. rewrite list_lookup_fmap in Hi. destruct (c_shards c1 !! i) as [s|] eqn:Hc; [|discriminate]. cbn in Hi. injection Hi as <-.
    apply (si_good _ _ _ _ _ _ (proj1 (Hs _ _ Hc))).
  - apply Forall_replicate. left. reflexivity.
  - unfold p_empty. rewrite replicate_length, map_length. symmetry. assumption.
  - rewrite Hpc in Hcopy. cbn [rbind] in Hcopy. destruct (Nat.eqb_spec q (length (map (@s_tab K V) (c_shards c1)))) as [->|]; [|discriminate]. cbn [negb] in Hcopy.
    injection Hcopy as <-. rewrite drop_ge, app_nil_r by (unfold p_empty; rewrite replicate_length, map_length; lia). rewrite firstn_all in HF.
    assert (Hlt : subidx lg (hash k) < length (c_shards c1)) by (rewrite Hlen1; apply subidx_lt). destruct (lookup_lt_is_Some_2 _ _ Hlt) as [s Hsh].
    destruct (Hs _ _ Hsh) as [Hi Hv].
    assert (Ht : map (@s_tab K V) (c_shards c1) !! subidx lg (hash k) = Some (s_tab s)) by (rewrite list_lookup_fmap, Hsh; reflexivity).
    destruct (Forall2_lookup_l _ _ _ _ _ HF Ht) as (t' & Ht' & Hg' & Hp').
    assert (Hfind : exists p e, find_key hash eqb E t' k = Ok (Some p) /\ deref t' p = Ok e).
    { destruct (ConcMapProof.find_spec hash eqb E HE HK t' k Hg') as (x & Hf & Hx). destruct x as [p|]; [destruct Hx as (e & Hd & _); eauto|]. exfalso.
      rewrite <- (find_part hash eqb lg HK (subidx lg (hash k)) m k eq_refl) in Hhas. cbn beta in Hv. rewrite <- Hv in Hhas.
      destruct (s_find eqb (vals s) k) as [e|] eqn:He; [|discriminate]. apply s_find_some in He. destruct He as [Hin Hke]. unfold vals in Hin.
      apply in_map_iff in Hin. destruct Hin as (nd & <- & Hnd). rewrite s_find_none in Hx. specialize (Hx (ref nd)).
      cbn [ref fst] in Hx. rewrite Hx in Hke; [discriminate|]. rewrite Hp', (si_refs _ _ _ _ _ _ Hi). apply in_map. assumption. }
    destruct Hfind as (p & e & Hf & Hd).
    assert (Hc2 : forall o, lop_key o = Some k -> cache_exec hash eqb E lg f (mkCache (map (fun t => mkShard t [] own' 0) new) (c_max c1)) o =
        let* (s', r) := shard_exec hash eqb E f (c_max c1) (mkShard t' [] own' 0) o in
        Ok (mkCache (<[subidx lg (hash k) := s']> (map (fun t => mkShard t [] own' 0) new)) (c_max c1), r)).
    { intros o Hok. unfold cache_exec. rewrite Hok. cbn [c_shards c_max]. unfold load, of_option. rewrite list_lookup_fmap, Ht'. reflexivity. }
    split; [|split].
    + unfold has. rewrite Hc2 by reflexivity. cbn [shard_exec]. unfold lru_exists. cbn [s_tab]. rewrite Hf. cbn [rbind]. eauto.
    + rewrite Hc2 by reflexivity. cbn [shard_exec]. unfold lru_get. cbn [s_tab s_list]. rewrite Hf. cbn [rbind]. rewrite Hd. reflexivity.
    + intros v. rewrite Hc2 by reflexivity. cbn [shard_exec]. unfold lru_insert. cbn [s_tab s_list]. rewrite Hf. cbn [rbind]. rewrite Hd. reflexivity.
Qed.
Print Assumptions C19_copy_refuted.
Example C19_example : exists c c1 rs c2, cache_new exp_hash ex_env 1 0 4 4 = Ok (Some c) /\
  cache_run exp_hash N.eqb ex_env 1 (fun k => k) c [LInsert 0 10; LInsert 1 11]%N = Ok (c1, rs) /\
  cache_copy exp_hash ex_env 1 1 c1 = Ok (Some c2) /\ has exp_hash N.eqb ex_env 1 (fun k => k) c1 0%N true /\
  cache_exec exp_hash N.eqb ex_env 1 (fun k => k) c2 (LGet 0%N) = UB /\
  (* a moved cache *)
  cache_exec exp_hash N.eqb ex_env 1 (fun k => k) (fst (cache_move 1 c1)) (LGet 0%N) = UB.
Proof.
  destruct (lru_env 4 1 4) as [c|] eqn:Hc; [|vm_compute in Hc; discriminate]. exists c.
  assert (Hn : cache_new exp_hash ex_env 1 0 4 4 = Ok (Some c)).
  { unfold lru_env in Hc. destruct (cache_new exp_hash ex_env 1 0 4 4); congruence. }
  vm_compute in Hc. injection Hc as <-. do 3 eexists. split; [exact Hn|]. split; [vm_compute; reflexivity|]. split; [vm_compute; reflexivity|].
  split; [eexists; vm_compute; reflexivity|]. split; vm_compute; reflexivity.
Qed.

(** ** C21: memoize_lru *)
Definition memo_op {K V} (o : lop K V) : Prop := match o with LCall _ | LContains _ | LSize | LSetSize _ | LReserve _ => True | _ => False end.
(** C21, results: every call returns f(x), and contains(x) f(x) or nothing. *)
Theorem C21_result : forall (K V : Type) (hash : K -> N) (eqb : K -> K -> bool) (E : env) (lg own : nat) (r : N) (n : nat) (f : K -> V) c os c' rs,
  real_env E -> KeyOK hash eqb -> lg <= 12 -> (forall a b, eqb a b = true -> f a = f b) ->
  size_arg_ok (K := K) E lg r -> cache_new hash E lg own r n = Ok (Some c) -> Forall (lop_ok E lg) os -> Forall memo_op os ->
  cache_run hash eqb E lg f c os = Ok (c', rs) ->
  Forall (fun d => match d with
                   | (LCall k, LResult v _) => v = f k | (LCall k, x) => x = LThrow
                   | (LContains k, LVal (Some v)) => v = f k | (LContains k, x) => x = LVal None
                   | _ => True end) (zip os rs).
Proof.
  intros K V hash eqb E lg own r n f c os c' rs HE0 HK Hlg Hf Hr Hnew Ho Hmo Hrun. pose proof (real_env_ok E HE0) as HE.
  destruct (lru_setup hash eqb E lg HE HK Hlg own r n f c os c' rs Hr Hnew Ho Hrun) as (max & m & Hlen & Hl & HR).
  assert (Hm : Forall (fun d => memo_op (fst d)) (zip os rs)).
  { apply Forall_forall. intros [o x] Hin. apply elem_of_zip_l in Hin. rewrite Forall_forall in Hmo. exact (Hmo o Hin). }
  clear HR Hrun Hlen Hmo Ho Hnew.
  assert (Hinv : Forall (fun d => match d with
                   | (LCall k, LResult v _) => v = f k | (LCall k, x) => x = LThrow
                   | (LContains k, LVal (Some v)) => v = f k | (LContains k, x) => x = LVal None
                   | _ => True end) (zip os rs) /\ forall e, In e m -> snd e = f (fst e)); [|apply Hinv].
  remember [] as m0 eqn:Hm0 in Hl. induction Hl as [|max0 m0 h max1 m1 o x m2 Hrun IH Hst]; subst.
  - split; [constructor|contradiction].
  - apply Forall_app in Hm. destruct Hm as [Hm1 Hm2]. inversion Hm2 as [|? ? Hm3 _]; subst. cbn [fst] in Hm3. destruct (IH eq_refl Hm1) as [IH1 IH2].
    assert (Hput : forall cap k, forall e, In e (put_new (sub hash lg) cap m1 k (f k)) -> snd e = f (fst e)).
    { intros cap k e He. unfold put_new in He. destruct (cap <? _); [apply evict_in in He|]; destruct He as [<-|He]; auto. }
    assert (Hfind : forall k e, s_find eqb m1 k = Some e -> snd e = f k).
    { intros k e He. apply s_find_some in He. destruct He as [Hin Hk]. rewrite (IH2 e Hin). symmetry. apply Hf. assumption. }
    rewrite Forall_app. destruct o as [k|k v|k|n0| |r0|k|k]; try contradiction; cbn [l_step] in Hst.
    + destruct Hst as [-> ->]. auto.
    + destruct Hst as [-> ->]. auto.
    + destruct Hst as [_ ->]. auto.
    + destruct (s_find eqb m1 k) as [e|] eqn:He.
      * destruct Hst as [-> ->]. split; [split; [assumption|constructor; [eauto|constructor]]|]. intros y [<-|Hy]; [apply IH2; apply s_find_some in He; apply He|].
        apply in_erase in Hy. apply IH2, Hy.
      * destruct Hst as [[-> ->]|[-> ->]]; (split; [split; [assumption|constructor; [reflexivity|constructor]]|]); eauto.
    + destruct Hst as [-> ->]. split; [|assumption]. split; [assumption|]. constructor; [|constructor]. destruct (s_find eqb m1 k) as [e|] eqn:He; cbn; eauto.
Qed.
Print Assumptions C21_result.

(** C21, bound: with no size greater than b ever set, a submap keeps at most b / 2^lg results (one fewer, in fact,
    unless b / 2^lg = 0), all of them f's. *)
Theorem C21_bound : forall (K V : Type) (hash : K -> N) (eqb : K -> K -> bool) (E : env) (lg own : nat) (r : N) (n b : nat) (f : K -> V) c os c' rs,
  real_env E -> KeyOK hash eqb -> lg <= 12 -> size_arg_ok (K := K) E lg r -> cache_new hash E lg own r n = Ok (Some c) -> Forall (lop_ok E lg) os -> Forall memo_op os ->
  cache_run hash eqb E lg f c os = Ok (c', rs) ->
  n <= b -> Forall (fun o => match o with LSetSize x => x <= b | _ => True end) os ->
  forall i ks, keys_distinct eqb ks -> (forall k, In k ks -> subidx lg (hash k) = i /\ exists c2 v, cache_exec hash eqb E lg f c' (LContains k) = Ok (c2, LVal (Some v))) ->
    length ks <= b / num_tables lg - 1.
Proof.
  intros K V hash eqb E lg own r n b f c os c' rs HE0 HK Hlg Hr Hnew Ho Hmo Hrun Hn Hos i ks Hd Hks. pose proof (real_env_ok E HE0) as HE.
  destruct (lru_setup hash eqb E lg HE HK Hlg own r n f c os c' rs Hr Hnew Ho Hrun) as (max & m & Hlen & Hl & HR).
  pose proof (num_pos lg) as Hnum.
  assert (Hb : length (part (sub hash lg) i m) <= b / num_tables lg - 1).
  { assert (Hall : Forall (fun d => memo_op (fst d) /\ match fst d with LSetSize x => x <= b | _ => True end) (zip os rs)).
    { apply Forall_forall. intros [o x] Hin. apply elem_of_zip_l in Hin. rewrite Forall_forall in Hos, Hmo. split; [exact (Hmo o Hin)|exact (Hos o Hin)]. }
    assert (Hmaxb : n / num_tables lg <= b / num_tables lg) by (apply Nat.div_le_mono; lia).
    clear - Hall Hl HK Hmaxb Hnum. set (bb := b / num_tables lg) in *.
    enough (max <= bb /\ length (part (sub hash lg) i m) <= bb - 1) by tauto.
    remember [] as m0 eqn:Hm0. revert Hmaxb. induction Hl as [|max0 m0 h max1 m1 o x m2 Hrun IH Hst]; subst; intros Hmaxb; [cbn; lia|].
    apply Forall_app in Hall. destruct Hall as [Ha1 Ha2]. inversion Ha2 as [|? ? [Ha3 Ha4] _]; subst. cbn [fst] in *. destruct (IH eq_refl Ha1 Hmaxb) as [IH1 IH2].
    split; [destruct o; cbn; try assumption; apply Nat.div_le_mono; lia|].
    pose proof (run_facts hash eqb lg HK _ _ _ _ _ _ Hrun) as HF. apply (step_kind hash eqb lg HK) in Hst.
    assert (Hcap : forall k v, kind hash eqb lg f (max1 - 1) m1 (LInsert k v, LUnit) m2 -> length (part (sub hash lg) i m2) <= bb - 1).
    { intros k v Hk. eapply (bound_step hash eqb lg HK f (max1 - 1) m1 _ m2 i (bb - 1)); [exact Hk|apply (fa_dist _ _ _ HF)|assumption|lia]. }
    destruct Hst as [-> _ _|k e v He Hu -> _|k v cap He Hu _ Hko Hcp ->].
    - assumption.
    - apply (Hcap k v). apply (k_touch hash eqb lg f _ m1 _ _ k e v); [assumption|reflexivity|reflexivity|right; reflexivity].
    - apply (Hcap k v). apply (k_put hash eqb lg f _ m1 _ _ k v cap); try reflexivity; [assumption|]. destruct o; try contradiction; try discriminate; [exact Hcp|].
      specialize (Hu k). rewrite (ko_refl _ _ HK) in Hu. discriminate. }
  etransitivity; [|exact Hb]. eapply (keys_bound hash eqb lg HK); [eapply fa_dist, (run_facts hash eqb lg HK); exact Hl|assumption|].
  intros k Hk. destruct (Hks k Hk) as [Hs (c2 & v & Hh)]. split; [assumption|].
  destruct (cache_exec_ok hash eqb E lg HE HK Hlg f c' max m (LContains k) HR I) as (c3 & r3 & m3 & He & [-> _] & _). rewrite Hh in He.
  destruct (s_find eqb m k); [discriminate|]. cbn in He. congruence.
Qed.
Print Assumptions C21_bound.

(** C21, retention, up to one: an argument called by o, with fewer than n / 2^lg - 1 other arguments of its submap
    called since, is not computed again.  The property asks for n / 2^lg of them: see C21_retention_refuted. *)
Theorem C21_retention_partial : forall (K V : Type) (hash : K -> N) (eqb : K -> K -> bool) (E : env) (lg own : nat) (r : N) (n : nat) (f : K -> V) c os1 k0 os2 k c' rs1 v0 b0 rs2 ks,
  real_env E -> KeyOK hash eqb -> lg <= 12 -> (forall a b, eqb a b = true -> f a = f b) ->
  size_arg_ok (K := K) E lg r -> cache_new hash E lg own r n = Ok (Some c) -> Forall (lop_ok E lg) (os1 ++ LCall k0 :: os2) ->
  Forall memo_op (os1 ++ LCall k0 :: os2) -> Forall (fun o => match o with LSetSize _ => False | _ => True end) (os1 ++ LCall k0 :: os2) ->
  cache_run hash eqb E lg f c (os1 ++ LCall k0 :: os2) = Ok (c', rs1 ++ LResult v0 b0 :: rs2) -> length rs1 = length os1 ->
  eqb k k0 = true ->
  length ks < n / num_tables lg - 1 ->
  (forall d y, In d (zip os2 rs2) -> uses eqb d y = true -> subidx lg (hash y) = subidx lg (hash k) -> eqb y k = false -> exists z, In z ks /\ eqb y z = true) ->
  exists c2, cache_exec hash eqb E lg f c' (LCall k) = Ok (c2, LResult (f k) false).
Proof.
  intros K V hash eqb E lg own r n f c os1 k0 os2 k c' rs1 v0 b0 rs2 ks HE0 HK Hlg Hf Hr Hnew Ho Hmo Hfix Hrun Hlen1 Hk0 Hks Hset. pose proof (real_env_ok E HE0) as HE.
  destruct (lru_setup hash eqb E lg HE HK Hlg own r n f c _ c' _ Hr Hnew Ho Hrun) as (max & m & Hlen & Hl & HR).
  assert (Hnoset : forall d, In d (zip (os1 ++ LCall k0 :: os2) (rs1 ++ LResult v0 b0 :: rs2)) -> match fst d with LSetSize _ => False | _ => True end).
  { intros [o1 x1] Hin. apply elem_of_list_In, elem_of_zip_l in Hin. rewrite Forall_forall in Hfix. apply (Hfix _ Hin). }
  assert (Hmax : max = n / num_tables lg).
  { eapply (fixed_max hash eqb lg); [exact Hl|]. intros d Hd. specialize (Hnoset d Hd). destruct (fst d); auto. }
  rewrite zip_with_app in Hl by (symmetry; assumption). cbn [zip_with] in Hl.
  assert (Hsub : forall d, In d ((LCall k0, LResult v0 b0) :: zip os2 rs2) -> In d (zip (os1 ++ LCall k0 :: os2) (rs1 ++ LResult v0 b0 :: rs2))).
  { intros d Hd. rewrite zip_with_app by (symmetry; assumption). apply in_or_app. right. exact Hd. }
  assert (Hfk : s_find eqb m k <> None).
  { eapply (run_kept hash eqb lg HK f _ _ _ (LCall k0, LResult v0 b0) (zip os2 rs2) max m k ks (n / num_tables lg - 1)); [exact Hl| |exact Hk0|lia| |assumption|exact Hset].
    - intros d Hd. specialize (Hnoset d (Hsub d Hd)). destruct (fst d); auto.
    - intros d Hd. subst max. destruct (fst d); auto; lia. }
  destruct (cache_exec_ok hash eqb E lg HE HK Hlg f c' max m (LCall k) HR I) as (c2 & r2 & m' & He & Hst & _). cbn [l_step] in Hst.
  destruct (s_find eqb m k) as [e|] eqn:Hfe; [|congruence]. destruct Hst as [-> _]. exists c2. rewrite He. do 2 f_equal.
  pose proof (C21_result K V hash eqb E lg own r n f c ((os1 ++ LCall k0 :: os2) ++ [LCall k]) c2 ((rs1 ++ LResult v0 b0 :: rs2) ++ [LResult (snd e) false]) HE0 HK Hlg Hf Hr Hnew) as HC.
  assert (Hz : (snd e) = f k).
  { specialize (HC ltac:(apply Forall_app; split; [assumption|repeat constructor]) ltac:(apply Forall_app; split; [assumption|repeat constructor])).
    rewrite zip_with_app in HC by (symmetry; assumption). specialize (HC ltac:(eapply run_app_intro; [exact Hrun|]; cbn [cache_run]; rewrite He; reflexivity)).
    apply Forall_app in HC. destruct HC as [_ HC]. inversion HC; assumption. }
  rewrite Hz. reflexivity.
Qed.
Print Assumptions C21_retention_partial.

(** A memoize_lru of four results in one submap keeps three: after calls with 1, 2, 3, 4, the call with 1 computes
    again, although 1 is one of the four most recently used arguments. *)
Theorem C21_retention_refuted : exists c c' rs, size_arg_ok (K := N) ex_env 0 4 /\ cache_new exp_hash ex_env 0 0 4 4 = Ok (Some c) /\
  cache_run exp_hash N.eqb ex_env 0 (fun k => k * k)%N c [LCall 1; LCall 2; LCall 3; LCall 4; LCall 1]%N = Ok (c', rs) /\
  rs = [LResult 1 true; LResult 4 true; LResult 9 true; LResult 16 true; LResult 1 true]%N.
Proof.
  destruct (lru_env 4 0 4) as [c|] eqn:Hc; [|vm_compute in Hc; discriminate]. exists c.
  assert (Hn : cache_new exp_hash ex_env 0 0 4 4 = Ok (Some c)).
  { unfold lru_env in Hc. destruct (cache_new exp_hash ex_env 0 0 4 4); congruence. }
  vm_compute in Hc. injection Hc as <-. do 2 eexists. split; [apply ex_arg; [vm_compute; reflexivity|reflexivity]|]. split; [exact Hn|].
  split; [vm_compute; reflexivity|]. reflexivity.
Qed.
Print Assumptions C21_retention_refuted.
Example C21_example : lru_outs 4 0 4 [LCall 1; LCall 2; LCall 3; LCall 1; LContains 2; LCall 4; LCall 1; LContains 2; LSize]%N =
  [LResult 1 true; LResult 4 true; LResult 9 true; LResult 1 false; LVal (Some 4); LResult 16 true; LResult 1 false; LVal None; LNum 3]%N.
Proof. vm_compute. reflexivity. Qed.
