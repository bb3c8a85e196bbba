(** Property theorems about threads calling mt_lru_cache, mt_memoize_lru and mt_memoize (C18, C20, C21). *)
From stdpp Require Import list list_numbers.
From Coq Require Import Arith NArith ZArith Lia.
From Verif.Common Require Import Res Word.
From Verif.Swiss Require Import Group GroupSpec Model Probe Inv TableInv Resize Ops MapSpec History PropsTable.
From Verif.Par Require Import Seq SeqProof PropsSeq Conc ConcProof ConcSafe ConcMap ConcMapProof PropsConc.
From Verif.Cache Require Import Lru LruSpec LruProof LruCache LruFacts PropsLru MtLru Memo.
Local Open Scope nat_scope.
Local Open Scope res_scope.

(** ** mt_lru_cache and mt_memoize_lru *)
Section Lru.
Context {K V : Type} (hash : K -> N) (eqb : K -> K -> bool) (E : env) (lg : nat).
Context (HE : env_ok E) (HK : KeyOK hash eqb) (Hlg : lg <= 12).
Lemma lru_lt (c : cache K V) max m : CR hash eqb E lg c max m -> forall o : mtop K V, mt_shard hash lg o < length (c_shards c).
Proof using. intros HR o. rewrite (cr_len _ _ _ _ _ _ _ HR). apply subidx_lt. Qed.
Lemma lru_good (c : cache K V) max m : CR hash eqb E lg c max m -> forall i s, c_shards c !! i = Some s -> sinv hash eqb E lg i s.
Proof using. intros HR i s Hi. apply (cr_shard _ _ _ _ _ _ _ HR). assumption. Qed.
Lemma zip_entries (f : K -> V) (L : list (entry (mtop K V) (lout V))) : zip (map e_op L) (map snd L) = map (fun e => (e_op e, snd e)) L.
Proof using. induction L as [|e L IH]; [reflexivity|]. cbn. rewrite IH. reflexivity. Qed.
End Lru.

(** C18 and C21 with threads.  A cache with any number of submaps, made with any size and used by any
    single-threaded program [os]; then any number of threads make any calls of get, insert, exists (mt_lru_cache) or
    operator(), contains (mt_memoize_lru), interleaved arbitrarily; the lock is std::mutex.  At every moment of every
    execution the results obtained so far are those of the calls one at a time, after [os], in an order L compatible
    with real time: they satisfy LruSpec.l_run, the specification of C18_refines.  No undefined behaviour. *)
Theorem C18_linearizable : forall (K V : Type) (hash : K -> N) (eqb : K -> K -> bool) (E : env) (lg own : nat) (r : N) (n : nat) (f : K -> V)
    c0 os c rs (pref : bool) progs s tr,
  real_env E -> KeyOK hash eqb -> lg <= 12 -> size_arg_ok (K := K) E lg r -> cache_new hash E lg own r n = Ok (Some c0) ->
  Forall (lop_ok E lg) os -> cache_run hash eqb E lg f c0 os = Ok (c, rs) ->
  reach (mt_code hash eqb E lg Mutex f (c_max c)) pref (start (c_shards c) progs) s tr ->
  (exists L c' max m, linearization tr L /\ cache_run hash eqb E lg f c0 (os ++ map e_op L) = Ok (c', rs ++ map snd L) /\
     l_run eqb (sub hash lg) f (num_tables lg) (n / num_tables lg) [] (zip os rs ++ map (fun e => (e_op e, snd e)) L) max m /\
     (idle s -> c_shards c' = st_shards s)) /\
  (forall i, step (mt_code hash eqb E lg Mutex f (c_max c)) pref s i <> Some UB).
Proof.
  intros K V hash eqb E lg own r n f c0 os c rs pref progs s tr HE0 HK Hlg Hr Hnew Ho Hrun Hreach. pose proof (real_env_ok E HE0) as HE.
  destruct (lru_setup hash eqb E lg HE HK Hlg own r n f c0 os c rs Hr Hnew Ho Hrun) as (max0 & m0 & Hlen0 & _ & HR).
  destruct (linearizable (mt_code hash eqb E lg Mutex f (c_max c)) pref (mt_shard hash lg) (mt_spec hash eqb E f (c_max c)) (sinv hash eqb E lg)
    (mt_code_ok hash eqb E lg Mutex f (c_max c) HE HK eq_refl) (c_shards c) progs s tr (lru_lt _ _ _ _ _ _ _ HR) (lru_good _ _ _ _ _ _ _ HR) Hreach)
    as [(L & vs & HL & Hseq & _ & Hid) Hub].
  split; [|assumption]. pose proof (seq_to_cache hash eqb E lg f (c_max c) _ _ _ Hseq) as Hrun2.
  replace (mkCache (c_shards c) (c_max c)) with c in Hrun2 by (destruct c; reflexivity).
  pose proof (run_app_intro hash eqb E lg f c0 os (map e_op L) c rs _ _ Hrun Hrun2) as Hrun3.
  assert (Ho2 : Forall (lop_ok E lg) (os ++ map e_op L)).
  { apply Forall_app. split; [assumption|]. apply Forall_forall. intros o Hin. apply elem_of_list_fmap in Hin. destruct Hin as (e & -> & _).
    unfold e_op. destruct (snd (fst e)); exact I. }
  destruct (lru_setup hash eqb E lg HE HK Hlg own r n f c0 _ _ _ Hr Hnew Ho2 Hrun3) as (max & m & _ & Hl & _).
  exists L, (mkCache vs (c_max c)), max, m. split; [assumption|]. split; [assumption|]. split; [|intros Hi; rewrite (Hid Hi); reflexivity].
  rewrite zip_with_app in Hl by congruence. rewrite zip_entries in Hl by exact f. exact Hl.
Qed.
Print Assumptions C18_linearizable.

(** ... no data race, and the threads always finish. *)
Theorem C18_threads_finish : forall (K V : Type) (hash : K -> N) (eqb : K -> K -> bool) (E : env) (lg own : nat) (r : N) (n : nat) (f : K -> V)
    c0 os c rs (pref : bool) progs s tr,
  real_env E -> KeyOK hash eqb -> lg <= 12 -> size_arg_ok (K := K) E lg r -> cache_new hash E lg own r n = Ok (Some c0) ->
  Forall (lop_ok E lg) os -> cache_run hash eqb E lg f c0 os = Ok (c, rs) ->
  reach (mt_code hash eqb E lg Mutex f (c_max c)) pref (start (c_shards c) progs) s tr ->
  ~ race s /\
  (~ finished s -> exists i s' ev, step (mt_code hash eqb E lg Mutex f (c_max c)) pref s i = Some (Ok (s', ev))) /\
  Acc (fun s' s => exists i ev, step (mt_code hash eqb E lg Mutex f (c_max c)) pref s i = Some (Ok (s', ev))) s.
Proof.
  intros K V hash eqb E lg own r n f c0 os c rs pref progs s tr HE0 HK Hlg Hr Hnew Ho Hrun Hreach. pose proof (real_env_ok E HE0) as HE.
  destruct (lru_setup hash eqb E lg HE HK Hlg own r n f c0 os c rs Hr Hnew Ho Hrun) as (max0 & m0 & _ & _ & HR).
  pose proof (mt_code_ok hash eqb E lg Mutex f (c_max c) HE HK eq_refl) as Hcode.
  split; [|split; [|apply terminates]].
  - eapply (no_race _ pref _ _ _ Hcode); [exact (lru_lt _ _ _ _ _ _ _ HR)|exact (lru_good _ _ _ _ _ _ _ HR)|exact Hreach].
  - eapply (progress _ pref _ _ _ Hcode); [exact (lru_lt _ _ _ _ _ _ _ HR)|exact (lru_good _ _ _ _ _ _ _ HR)|exact Hreach].
Qed.
Print Assumptions C18_threads_finish.

Definition lru_ready (r : N) (lg n : nat) (os : list (lop N N)) : option (cache N N) :=
  match lru_env r lg n with
  | Some c => match cache_run exp_hash N.eqb ex_env lg (fun k => k * k)%N c os with Ok (c', _) => Some c' | _ => None end
  | None => None
  end.
Definition lru_sched dc (r : N) (lg n : nat) os progs l :=
  match lru_ready r lg n os with
  | Some c => sched (mt_code exp_hash N.eqb ex_env lg dc (fun k => k * k)%N (c_max c)) false (start (c_shards c) progs) l
  | None => None
  end.
Lemma lru_sched_reach dc r lg n os progs l s tr : lru_sched dc r lg n os progs l = Some (s, tr) ->
  exists c0 c rs, cache_new exp_hash ex_env lg 0 r n = Ok (Some c0) /\ cache_run exp_hash N.eqb ex_env lg (fun k => k * k)%N c0 os = Ok (c, rs) /\
    reach (mt_code exp_hash N.eqb ex_env lg dc (fun k => k * k)%N (c_max c)) false (start (c_shards c) progs) s tr.
Proof.
  unfold lru_sched, lru_ready, lru_env. destruct (cache_new exp_hash ex_env lg 0 r n) as [[c0|]| | | |]; try discriminate.
  destruct (cache_run exp_hash N.eqb ex_env lg (fun k => k * k)%N c0 os) as [[c rs]| | | |] eqn:Hr; try discriminate. intros Hs.
  exists c0, c, rs. split; [reflexivity|]. split; [exact Hr|]. change tr with ([] ++ tr). eapply sched_reach; [constructor|exact Hs].
Qed.
(** C18 with threads is not vacuous: one submap of two entries holding 1 and 2; while one thread gets 1 another
    inserts 3, which evicts 2. *)
Example C18_threads_example : exists c0 c rs s tr, size_arg_ok (K := N) ex_env 0 2 /\ cache_new exp_hash ex_env 0 0 2 2 = Ok (Some c0) /\
  cache_run exp_hash N.eqb ex_env 0 (fun k => k * k)%N c0 [LInsert 1 10; LInsert 2 20]%N = Ok (c, rs) /\
  reach (mt_code exp_hash N.eqb ex_env 0 Mutex (fun k => k * k)%N (c_max c)) false (start (c_shards c) [[TGet 1]; [TInsert 3 30; TGet 2]]%N) s tr /\
  In (ERes (0, 0) (LVal (Some 10%N))) tr /\ In (ERes (1, 1) (LVal None)) tr.
Proof.
  destruct (lru_sched Mutex 2 0 2 [LInsert 1 10; LInsert 2 20]%N [[TGet 1]; [TInsert 3 30; TGet 2]]%N [0;1;0;0;0;0;0;1;1;1;1;1;1;1;1;1]) as [[s tr]|] eqn:Hs; [|vm_compute in Hs; discriminate].
  destruct (lru_sched_reach _ _ _ _ _ _ _ _ _ Hs) as (c0 & c & rs & H1 & H2 & H3). exists c0, c, rs, s, tr.
  split; [apply ex_arg; [vm_compute; reflexivity|reflexivity]|]. split; [assumption|]. split; [assumption|]. split; [assumption|].
  vm_compute in Hs. injection Hs as _ <-. cbn. auto 20.
Qed.

(** With std::shared_mutex (the caches' Mutex parameter) get() changes the list under a shared lock: two threads get
    two keys of one submap, and both are about to write its list. *)
Theorem C18_shared_mutex_race_refuted : exists c0 c rs s tr, size_arg_ok (K := N) ex_env 0 2 /\ cache_new exp_hash ex_env 0 0 2 2 = Ok (Some c0) /\
  cache_run exp_hash N.eqb ex_env 0 (fun k => k * k)%N c0 [LInsert 1 10; LInsert 2 20]%N = Ok (c, rs) /\
  reach (mt_code exp_hash N.eqb ex_env 0 SharedMutex (fun k => k * k)%N (c_max c)) false (start (c_shards c) [[TGet 1]; [TGet 2]]%N) s tr /\ race s.
Proof.
  destruct (lru_sched SharedMutex 2 0 2 [LInsert 1 10; LInsert 2 20]%N [[TGet 1]; [TGet 2]]%N [0;1;0;1;0;1]) as [[s tr]|] eqn:Hs; [|vm_compute in Hs; discriminate].
  destruct (lru_sched_reach _ _ _ _ _ _ _ _ _ Hs) as (c0 & c & rs & H1 & H2 & H3). exists c0, c, rs, s, tr.
  split; [apply ex_arg; [vm_compute; reflexivity|reflexivity]|]. split; [assumption|]. split; [assumption|]. split; [assumption|].
  vm_compute in Hs. injection Hs as <- _. exists 0, 1, 0, true. split; [discriminate|].
  split; (eexists _, _, _; split; [reflexivity|]; split; [reflexivity|]; left; eexists _, _; split; reflexivity).
Qed.
Print Assumptions C18_shared_mutex_race_refuted.

(** ** mt_memoize *)
Section Memoize.
Context {K V : Type} (hash : K -> N) (eqb : K -> K -> bool) (E : env) (lg : nat).
Context (HE : env_ok E) (HK : KeyOK hash eqb) (Hlg : lg <= 12) (f : K -> V).
Lemma reserved_empty ns (m m' : list (K * V)) rs : s_run eqb m (map OReserve ns) rs m' -> m' = m.
Proof using.
  revert m rs. induction ns as [|x ns IH]; intros m rs H; inversion H; subst; [reflexivity|].
  match goal with H : s_step _ _ _ _ _ |- _ => destruct H as [_ ->] end. eauto.
Qed.
Lemma memo_setup ns ps rs : Forall (p_op_ok E lg) (map (OReserve (K := K) (V := V)) ns) -> p_run hash eqb E lg (p_empty lg) (map OReserve ns) = Ok (ps, rs) ->
  length ps = num_tables lg /\ forall i t, ps !! i = Some t -> mgood hash eqb E lg f i t.
Proof using HE HK Hlg.
  intros Ho Hrun. destruct (setup hash eqb E lg HE HK Hlg _ ps rs Ho Hrun) as (m & Hs & HPR). apply reserved_empty in Hs. subst m.
  split; [apply (pg_len _ _ _ _ _ (proj1 HPR))|]. intros i t Hi. split; [eapply shards_good; eassumption|]. intros e He. exfalso.
  destruct HPR as [_ Hp]. symmetry in Hp. apply Permutation_nil in Hp. assert (Hin : In e (pelems ps)); [|rewrite Hp in Hin; destruct Hin].
  unfold pelems. apply in_flat_map. exists t. split; [|assumption]. apply elem_of_list_In. eapply elem_of_list_lookup_2. exact Hi.
Qed.
End Memoize.

(** C20.  mt_memoize<F, recursive = false, N, Mutex> of any f, any number of submaps, after any calls of reserve;
    any number of threads make any calls, interleaved arbitrarily; std::mutex or std::shared_mutex.  Every call
    returns f(x) (or throws std::bad_alloc), contains(x) returns f(x) or nothing, and f is evaluated (a result
    [CRes true _]) at most once for each argument. *)
Theorem C20_once : forall (K V : Type) (hash : K -> N) (eqb : K -> K -> bool) (E : env) (lg : nat) (dc : disc) (pref : bool) (f : K -> V) ns ps rs progs s tr,
  real_env E -> KeyOK hash eqb -> lg <= 12 -> (forall a b, eqb a b = true -> f a = f b) ->
  Forall (p_op_ok E lg) (map (OReserve (K := K) (V := V)) ns) -> p_run hash eqb E lg (p_empty lg) (map OReserve ns) = Ok (ps, rs) ->
  reach (lazy_code hash eqb E lg dc f) pref (start ps progs) s tr ->
  (forall id r, In (ERes id r) tr -> exists o, In (EInv id o) tr /\ right_answer f o r) /\
  (forall id1 id2 k1 k2 v1 v2, In (EInv id1 (MCall k1)) tr -> In (EInv id2 (MCall k2)) tr -> eqb k1 k2 = true ->
     In (ERes id1 (CRes true v1)) tr -> In (ERes id2 (CRes true v2)) tr -> id1 = id2) /\
  ~ race s /\ (forall i, step (lazy_code hash eqb E lg dc f) pref s i <> Some UB).
Proof.
  intros K V hash eqb E lg dc pref f ns ps rs progs s tr HE0 HK Hlg Hf Ho Hrun Hreach. pose proof (real_env_ok E HE0) as HE.
  destruct (memo_setup hash eqb E lg HE HK Hlg f ns ps rs Ho Hrun) as [Hlen Hgood].
  assert (Hlt : forall o : mop K, mshard hash lg o < length ps) by (intros o; rewrite Hlen; apply subidx_lt).
  pose proof (lazy_code_ok hash eqb E lg dc HE HK f Hf) as Hcode.
  destruct (linearizable _ pref _ _ _ Hcode ps progs s tr Hlt Hgood Hreach) as [(L & vs & HL & Hseq & _ & _) Hub].
  destruct (seq_once hash eqb E lg HE HK f Hf ps L vs Hseq) as (Hright & Honce & _).
  split; [|split; [|split; [|assumption]]].
  - intros id r Hin. destruct (lin_complete _ _ HL _ _ Hin) as [o HoL]. exists o. split; [eapply (lin_called _ _ HL); exact HoL|eauto].
  - intros id1 id2 k1 k2 v1 v2 Hi1 Hi2 Hk Hr1 Hr2.
    destruct (lin_complete _ _ HL _ _ Hr1) as [o1 H1]. destruct (lin_complete _ _ HL _ _ Hr2) as [o2 H2].
    assert (o1 = MCall k1) as -> by (eapply (proj1 (inv_unique _ _ _ _ _ _ Hreach)); [exact (lin_called _ _ HL _ _ _ H1)|exact Hi1]).
    assert (o2 = MCall k2) as -> by (eapply (proj1 (inv_unique _ _ _ _ _ _ Hreach)); [exact (lin_called _ _ HL _ _ _ H2)|exact Hi2]).
    apply elem_of_list_In, elem_of_list_lookup in H1. destruct H1 as [i1 H1]. apply elem_of_list_In, elem_of_list_lookup in H2. destruct H2 as [i2 H2].
    assert (i1 = i2) as <-; [|congruence]. eapply (Honce k1); [exact H1|exact H2| |].
    + exists k1, v1. cbn. split; [reflexivity|]. split; [apply (ko_refl _ _ HK)|reflexivity].
    + exists k2, v2. cbn. auto.
  - eapply (no_race _ pref _ _ _ Hcode); eassumption.
Qed.
Print Assumptions C20_once.

(** ... and the threads always finish. *)
Theorem C20_finish : forall (K V : Type) (hash : K -> N) (eqb : K -> K -> bool) (E : env) (lg : nat) (dc : disc) (pref : bool) (f : K -> V) ns ps rs progs s tr,
  real_env E -> KeyOK hash eqb -> lg <= 12 -> (forall a b, eqb a b = true -> f a = f b) ->
  Forall (p_op_ok E lg) (map (OReserve (K := K) (V := V)) ns) -> p_run hash eqb E lg (p_empty lg) (map OReserve ns) = Ok (ps, rs) ->
  reach (lazy_code hash eqb E lg dc f) pref (start ps progs) s tr ->
  (~ finished s -> exists i s' ev, step (lazy_code hash eqb E lg dc f) pref s i = Some (Ok (s', ev))) /\
  Acc (fun s' s => exists i ev, step (lazy_code hash eqb E lg dc f) pref s i = Some (Ok (s', ev))) s.
Proof.
  intros K V hash eqb E lg dc pref f ns ps rs progs s tr HE0 HK Hlg Hf Ho Hrun Hreach. pose proof (real_env_ok E HE0) as HE.
  destruct (memo_setup hash eqb E lg HE HK Hlg f ns ps rs Ho Hrun) as [Hlen Hgood].
  assert (Hlt : forall o : mop K, mshard hash lg o < length ps) by (intros o; rewrite Hlen; apply subidx_lt).
  split; [|apply terminates]. eapply (progress _ pref _ _ _ (lazy_code_ok hash eqb E lg dc HE HK f Hf)); eassumption.
Qed.
Print Assumptions C20_finish.

(** C20, recursive functions (mt_memoize with recursive = true, and gtl::memoize with one thread): f is given by a
    recursion [def] through the memoized function, f(x) being its only solution ([defines]).  Every call returns f(x)
    or throws std::bad_alloc, whatever the other threads do; no data race, no undefined behaviour, no deadlock. *)
Theorem C20_recursive : forall (K V : Type) (hash : K -> N) (eqb : K -> K -> bool) (E : env) (lg : nat) (dc : disc) (pref : bool)
    (def : K -> body K V) (rank : K -> nat) (f : K -> V) ns ps rs progs s tr,
  real_env E -> KeyOK hash eqb -> lg <= 12 -> defines eqb def rank f ->
  Forall (p_op_ok E lg) (map (OReserve (K := K) (V := V)) ns) -> p_run hash eqb E lg (p_empty lg) (map OReserve ns) = Ok (ps, rs) ->
  reach (memo_code hash eqb E lg dc def rank) pref (start ps progs) s tr ->
  (forall id r, In (ERes id r) tr -> exists o, In (EInv id o) tr /\ right_answer f o r) /\
  ~ race s /\ (forall i, step (memo_code hash eqb E lg dc def rank) pref s i <> Some UB) /\
  (~ finished s -> exists i s' ev, step (memo_code hash eqb E lg dc def rank) pref s i = Some (Ok (s', ev))) /\
  Acc (fun s' s => exists i ev, step (memo_code hash eqb E lg dc def rank) pref s i = Some (Ok (s', ev))) s.
Proof.
  intros K V hash eqb E lg dc pref def rank f ns ps rs progs s tr HE0 HK Hlg Hdef Ho Hrun Hreach. pose proof (real_env_ok E HE0) as HE.
  destruct (memo_setup hash eqb E lg HE HK Hlg f ns ps rs Ho Hrun) as [Hlen Hgood].
  pose proof (memo_code_safe hash eqb E lg dc HE HK f (d_eqb _ _ _ _ Hdef) def rank Hdef) as Hcode.
  destruct (safe_results _ pref _ _ _ Hcode ps Hlen Hgood progs s tr Hreach) as (H1 & H2 & _).
  split; [exact H1|]. split; [eapply (safe_no_race _ pref _ _ _ Hcode ps Hlen Hgood); exact Hreach|]. split; [exact H2|].
  split; [|apply terminates]. eapply (safe_progress _ pref _ _ _ Hcode ps Hlen Hgood). exact Hreach.
Qed.
Print Assumptions C20_recursive.

(** a schedule, skipping the turns of threads that cannot step *)
Fixpoint sched_skip {T O R} (code : O -> cmd T R) (pref : bool) (s : state T O R) (l : list nat) : state T O R * list (event O R) :=
  match l with
  | [] => (s, [])
  | i :: l' =>
      match step code pref s i with
      | Some (Ok (s', ev)) => let '(s2, tr) := sched_skip code pref s' l' in (s2, ev ++ tr)
      | _ => sched_skip code pref s l'
      end
  end.
Lemma sched_skip_reach {T O R} (code : O -> cmd T R) pref s0 l : forall s tr0 s' tr, reach code pref s0 s tr0 -> sched_skip code pref s l = (s', tr) ->
  reach code pref s0 s' (tr0 ++ tr).
Proof.
  induction l as [|i l IH]; intros s tr0 s' tr Hr Hs; cbn in Hs.
  - injection Hs as <- <-. rewrite app_nil_r. assumption.
  - destruct (step code pref s i) as [[[s1 ev]| | | |]|] eqn:Hst; try (eapply IH; eassumption).
    destruct (sched_skip code pref s1 l) as [s2 tr2] eqn:Hsc. injection Hs as <- <-.
    rewrite app_assoc. eapply IH; [|exact Hsc]. econstructor; eassumption.
Qed.
Definition memo_sched {O} (code : O -> cmd (table N N) (cout N)) progs l :=
  match p_run exp_hash N.eqb ex_env 2 (p_empty 2) (map OReserve []) with
  | Ok (ps, _) => Some (sched_skip code false (start ps progs) l)
  | _ => None
  end.
Lemma memo_sched_reach {O} (code : O -> cmd (table N N) (cout N)) progs l s tr : memo_sched code progs l = Some (s, tr) ->
  exists ps rs, p_run exp_hash N.eqb ex_env 2 (p_empty 2) (map OReserve []) = Ok (ps, rs) /\ reach code false (start ps progs) s tr.
Proof.
  unfold memo_sched. destruct (p_run exp_hash N.eqb ex_env 2 (p_empty 2) (map OReserve [])) as [[ps rs]| | | |]; try discriminate. intros [= Hs].
  exists ps, rs. split; [reflexivity|]. change tr with ([] ++ tr). eapply sched_skip_reach; [constructor|exact Hs].
Qed.
(** C20_once is not vacuous: three threads call f(5); one evaluates it. *)
Example C20_once_example : exists ps rs s tr, p_run exp_hash N.eqb ex_env 2 (p_empty 2) (map OReserve []) = Ok (ps, rs) /\
  reach (lazy_code exp_hash N.eqb ex_env 2 Mutex (fun k => k * k)%N) false (start ps [[MCall 5]; [MCall 5; MContains 6]; [MCall 5]]%N) s tr /\
  In (ERes (0, 0) (CRes false (Some 25%N))) tr /\ In (ERes (1, 0) (CRes true (Some 25%N))) tr /\ In (ERes (2, 0) (CRes false (Some 25%N))) tr /\ In (ERes (1, 1) (CRes false None)) tr.
Proof.
  destruct (memo_sched (lazy_code exp_hash N.eqb ex_env 2 Mutex (fun k => k * k)%N) [[MCall 5]; [MCall 5; MContains 6]; [MCall 5]]%N
    [0;1;2;1;1;1;1;1;1;0;0;0;0;0;2;2;2;2;2;1;1;1;1;1;1;1;0;0;0;2;2;2]) as [[s tr]|] eqn:Hs; [|vm_compute in Hs; discriminate].
  destruct (memo_sched_reach _ _ _ _ _ Hs) as (ps & rs & H1 & H2). exists ps, rs, s, tr. split; [assumption|]. split; [assumption|].
  vm_compute in Hs. injection Hs as _ <-. cbn. auto 20.
Qed.
(** C20_recursive is not vacuous: fib memoized, by two threads *)
Definition fib_def (k : N) : body N N := if (k <? 2)%N then BRet k else BAsk (k - 1)%N (fun a => BAsk (k - 2)%N (fun b => BRet (a + b)%N)).
Fixpoint fib_nat (n : nat) : N := match n with O => 0%N | S m => match m with O => 1%N | S p => (fib_nat m + fib_nat p)%N end end.
Lemma fib_defines : defines N.eqb fib_def N.to_nat (fun k => fib_nat (N.to_nat k)).
Proof.
  assert (Hcase : forall k, (2 <= k)%N -> exists m, N.to_nat k = S (S m) /\ N.to_nat (k - 1) = S m /\ N.to_nat (k - 2) = m).
  { intros k Hk. exists (N.to_nat k - 2). lia. }
  split.
  - intros k. unfold fib_def. destruct (N.ltb_spec k 2).
    + assert (k = 0%N \/ k = 1%N) as [->| ->] by lia; reflexivity.
    + destruct (Hcase k H) as (m & H1 & H2 & H3). cbn [value]. rewrite H1, H2, H3. reflexivity.
  - intros k. unfold fib_def. destruct (N.ltb_spec k 2); [exact I|]. cbn. lia.
  - intros a b H. apply N.eqb_eq in H. subst. reflexivity.
Qed.
Fixpoint alternate (n : nat) : list nat := match n with O => [] | S m => 0 :: 1 :: alternate m end.
Example C20_recursive_example : exists ps rs s tr, p_run exp_hash N.eqb ex_env 2 (p_empty 2) (map OReserve []) = Ok (ps, rs) /\
  reach (memo_code exp_hash N.eqb ex_env 2 SharedMutex fib_def N.to_nat) false (start ps [[MCall 9]; [MCall 8]]%N) s tr /\
  In (ERes (0, 0) (CRes false (Some 34%N))) tr /\ In (ERes (1, 0) (CRes false (Some 21%N))) tr.
Proof.
  destruct (memo_sched (memo_code exp_hash N.eqb ex_env 2 SharedMutex fib_def N.to_nat) [[MCall 9]; [MCall 8]]%N (alternate 200)) as [[s tr]|] eqn:Hs; [|vm_compute in Hs].
  2: discriminate.
  destruct (memo_sched_reach _ _ _ _ _ Hs) as (ps & rs & H1 & H2). exists ps, rs, s, tr. split; [assumption|]. split; [assumption|].
  vm_compute in Hs. injection Hs as _ <-. cbn. auto 20.
Qed.
