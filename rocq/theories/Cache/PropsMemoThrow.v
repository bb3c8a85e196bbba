(** Property theorems about memoized functions that throw (C59). *)
From stdpp Require Import list list_numbers.
From Coq Require Import Arith NArith ZArith Lia.
From Verif.Common Require Import Res Word.
From Verif.Swiss Require Import Group GroupSpec Model Probe Inv TableInv Resize Ops MapSpec History PropsTable Failing FailingProof PropsFailing.
From Verif.Par Require Import Seq SeqProof PropsSeq Conc ConcProof ConcSafe ConcMap ConcMapProof PropsConc.
From Verif.Cache Require Import Lru LruSpec LruProof LruCache LruFacts PropsLru MtLru Memo PropsMemo MemoThrow.
Local Open Scope nat_scope.
Local Open Scope res_scope.

(** ** memoize_lru (one thread) of a function that may throw *)
(** mt_memoize_lru::operator() (219-245): f is called after find_or_prepare_insert (phmap.hpp:3946-3951); when it throws, the
    submap keeps what prepare_insert did, and nothing else has happened.  The result is the value and whether f was
    evaluated; [None]: f threw. *)
Definition ml_throw_call {K V} (hash : K -> N) (eqb : K -> K -> bool) (E : env) (f : K -> option V) (max : nat) (s : shard K V) (k : K) :
    res (shard K V * option (V * bool)) :=
  let* r := find_key hash eqb E (s_tab s) k in
  match r with
  | Some p =>
      let* kv := deref (s_tab s) p in
      let* e := node_at (s_list s) (snd kv) in
      let* l := splice_front (s_list s) (snd kv) in
      Ok (with_list s l, Some (snd e, false))
  | None =>
      match f k with
      | Some v => let* s' := add_new hash eqb E (fun n => max <=? n) s k v in Ok (s', Some (v, true))
      | None => let* (t1, p) := prepare_insert hash E (s_tab s) (hash k) in Ok (with_tab t1 s, None)
      end
  end.
Fixpoint ml_throw_run {K V} (hash : K -> N) (eqb : K -> K -> bool) (E : env) (f : K -> option V) (max : nat) (s : shard K V) (ks : list K) :
    res (shard K V * list (option (V * bool))) :=
  match ks with
  | [] => Ok (s, [])
  | k :: ks' =>
      let* (s1, r) := ml_throw_call hash eqb E f max s k in
      let* (s2, rs) := ml_throw_run hash eqb E f max s1 ks' in
      Ok (s2, r :: rs)
  end.

(** ** mt_memoize *)
(** C59, the mode without locks around f (mt_memoize with recursive = true, and gtl::memoize with one thread).  f is given
    by a recursion [def] through the memoized function, which may throw and may catch the exceptions of inner calls; f x is
    [None] when f throws at x.  Whatever the other threads do, every call returns f(x), or throws the exception of f(x), or
    std::bad_alloc; nothing is ever cached for an argument where f throws; no data race, no undefined behaviour, no deadlock. *)
Theorem C59_recursive : forall (K V : Type) (hash : K -> N) (eqb : K -> K -> bool) (E : env) (lg : nat) (dc : disc) (pref : bool)
    (def : K -> tbody K V) (rank : K -> nat) (f : K -> option V) ns ps rs progs s tr,
  real_env E -> KeyOK hash eqb -> lg <= 12 -> tdefines eqb def rank f ->
  Forall (p_op_ok E lg) (map (OReserve (K := K) (V := V)) ns) -> p_run hash eqb E lg (p_empty lg) (map OReserve ns) = Ok (ps, rs) ->
  reach (memo_throw_code hash eqb E lg dc def rank) pref (start ps progs) s tr ->
  (forall id r, In (ERes id r) tr -> exists o, In (EInv id o) tr /\ t_answer f o r) /\
  ~ race s /\ (forall i, step (memo_throw_code hash eqb E lg dc def rank) pref s i <> Some UB) /\
  (~ finished s -> exists i s' ev, step (memo_throw_code hash eqb E lg dc def rank) pref s i = Some (Ok (s', ev))) /\
  Acc (fun s' s => exists i ev, step (memo_throw_code hash eqb E lg dc def rank) pref s i = Some (Ok (s', ev))) s.
Proof.
  intros K V hash eqb E lg dc pref def rank f ns ps rs progs s tr HE0 HK Hlg Hdef Ho Hrun Hreach. pose proof (real_env_ok E HE0) as HE.
  destruct (setup hash eqb E lg HE HK Hlg _ ps rs Ho Hrun) as (m & Hs & HPR). apply reserved_empty in Hs. subst m.
  assert (Hlen : length ps = num_tables lg) by apply (pg_len _ _ _ _ _ (proj1 HPR)).
  assert (Hgood : forall i t, ps !! i = Some t -> tgood hash eqb E lg f i t).
  { intros i t Hi. split; [eapply shards_good; eassumption|]. intros e He. exfalso.
    destruct HPR as [_ Hp]. symmetry in Hp. apply Permutation_nil in Hp. assert (Hin : In e (pelems ps)); [|rewrite Hp in Hin; destruct Hin].
    unfold pelems. apply in_flat_map. exists t. split; [|assumption]. apply elem_of_list_In. eapply elem_of_list_lookup_2. exact Hi. }
  pose proof (memo_throw_code_safe hash eqb E lg dc HE HK f (td_eqb _ _ _ _ Hdef) def rank Hdef) as Hcode.
  destruct (safe_results _ pref _ _ _ Hcode ps Hlen Hgood progs s tr Hreach) as (H1 & H2 & _).
  split; [exact H1|]. split; [eapply (safe_no_race _ pref _ _ _ Hcode ps Hlen Hgood); exact Hreach|]. split; [exact H2|].
  split; [|apply terminates]. eapply (safe_progress _ pref _ _ _ Hcode ps Hlen Hgood). exact Hreach.
Qed.
Print Assumptions C59_recursive.

(** C59, mt_memoize with recursive = false.  The same answers; f returns at most once for each argument; no data race, no
    undefined behaviour, and the threads always finish.  When no call is running, size() is the number of cached values
    plus the number of exceptions so far (L is an order of the calls).  Partial: C59 wants size() not to count them. *)
Theorem C59_lazy_partial : forall (K V : Type) (hash : K -> N) (eqb : K -> K -> bool) (E : env) (lg : nat) (dc : disc) (pref : bool) (f : K -> option V) ns ps rs progs s tr,
  real_env E -> KeyOK hash eqb -> lg <= 12 -> (forall a b, eqb a b = true -> f a = f b) ->
  Forall (p_op_ok E lg) (map (OReserve (K := K) (V := V)) ns) -> p_run hash eqb E lg (p_empty lg) (map OReserve ns) = Ok (ps, rs) ->
  reach (lazy_throw_code hash eqb E lg dc f) pref (start ps progs) s tr ->
  (forall id r, In (ERes id r) tr -> exists o, In (EInv id o) tr /\ t_answer f o r) /\
  (forall id1 id2 k1 k2 v1 v2, In (EInv id1 (MCall k1)) tr -> In (EInv id2 (MCall k2)) tr -> eqb k1 k2 = true ->
     In (ERes id1 (CRes true (Some v1))) tr -> In (ERes id2 (CRes true (Some v2))) tr -> id1 = id2) /\
  ~ race s /\ (forall i, step (lazy_throw_code hash eqb E lg dc f) pref s i <> Some UB) /\
  (~ finished s -> exists i s' ev, step (lazy_throw_code hash eqb E lg dc f) pref s i = Some (Ok (s', ev))) /\
  Acc (fun s' s => exists i ev, step (lazy_throw_code hash eqb E lg dc f) pref s i = Some (Ok (s', ev))) s /\
  (idle s -> exists L, linearization tr L /\
     list_sum (map t_size (st_shards s)) = length (flat_map pe (st_shards s)) + list_sum (map (fun e => match snd e with CRes true None => 1 | _ => 0 end) L)).
Proof.
  intros K V hash eqb E lg dc pref f ns ps rs progs s tr HE0 HK Hlg Hf Ho Hrun Hreach. pose proof (real_env_ok E HE0) as HE.
  destruct (throw_setup hash eqb E lg HE HK Hlg f ns ps rs Ho Hrun) as (Hlen & Hgood & Hz1 & Hz2).
  assert (Hlt : forall o : mop K, mshard hash lg o < length ps) by (intros o; rewrite Hlen; apply subidx_lt).
  pose proof (lazy_throw_ok hash eqb E lg dc HE HK f Hf) as Hcode.
  destruct (linearizable _ pref _ _ _ Hcode ps progs s tr Hlt Hgood Hreach) as [(L & vs & HL & Hseq & _ & Hid) Hub].
  destruct (tseq_once hash eqb E lg HE HK f Hf ps L vs Hseq) as (Hright & Honce & _).
  split; [|split; [|split; [|split; [assumption|split; [|split; [apply terminates|]]]]]].
  - intros id r Hin. destruct (lin_complete _ _ HL _ _ Hin) as [o HoL]. exists o. split; [eapply (lin_called _ _ HL); exact HoL|eauto].
  - intros id1 id2 k1 k2 v1 v2 Hi1 Hi2 Hk Hr1 Hr2.
    destruct (lin_complete _ _ HL _ _ Hr1) as [o1 H1]. destruct (lin_complete _ _ HL _ _ Hr2) as [o2 H2].
    assert (o1 = MCall k1) as -> by (eapply (proj1 (inv_unique _ _ _ _ _ _ Hreach)); [exact (lin_called _ _ HL _ _ _ H1)|exact Hi1]).
    assert (o2 = MCall k2) as -> by (eapply (proj1 (inv_unique _ _ _ _ _ _ Hreach)); [exact (lin_called _ _ HL _ _ _ H2)|exact Hi2]).
    apply elem_of_list_In, elem_of_list_lookup in H1. destruct H1 as [i1 H1]. apply elem_of_list_In, elem_of_list_lookup in H2. destruct H2 as [i2 H2].
    assert (i1 = i2) as <-; [|congruence]. eapply (Honce k1); [exact H1|exact H2| |].
    + exists k1, v1. cbn. split; [reflexivity|]. split; [apply (ko_refl _ _ HK)|reflexivity].
    + exists k2, v2. cbn. auto.
  - eapply (no_race _ pref _ _ _ Hcode); eassumption.
  - eapply (progress _ pref _ _ _ Hcode); eassumption.
  - intros Hi. exists L. split; [assumption|]. rewrite (Hid Hi). pose proof (tseq_size hash eqb E lg f ps L vs Hseq) as Hsz.
    rewrite Hz1, Hz2 in Hsz. rewrite Nat.add_0_r in Hsz. exact Hsz.
Qed.
Print Assumptions C59_lazy_partial.

(** C59 is not vacuous: three threads call f(5) and f(4) where f throws at 4; f(5) is evaluated once, f(4) by each caller. *)
Definition picky (k : N) : option N := if (k =? 4)%N then None else Some (k * k)%N.
Lemma picky_ok : forall a b, N.eqb a b = true -> picky a = picky b.
Proof. intros a b H. apply N.eqb_eq in H. subst. reflexivity. Qed.
Definition picky_threads : list (list (mop N)) := [[MCall 5; MCall 4]; [MCall 4; MContains 4]; [MCall 4; MCall 5]]%N.
Fixpoint in_turn (n : nat) : list nat := match n with O => [] | S m => 0 :: 1 :: 2 :: in_turn m end.
Example C59_lazy_example : exists ps rs s tr, p_run exp_hash N.eqb ex_env 2 (p_empty 2) (map OReserve []) = Ok (ps, rs) /\
  reach (lazy_throw_code exp_hash N.eqb ex_env 2 Mutex picky) false (start ps picky_threads) s tr /\ idle s /\
  In (ERes (0, 0) (CRes true (Some 25%N))) tr /\ In (ERes (0, 1) (CRes true None)) tr /\ In (ERes (1, 0) (CRes true None)) tr /\
  In (ERes (1, 1) (CRes false None)) tr /\ In (ERes (2, 0) (CRes true None)) tr /\ In (ERes (2, 1) (CRes false (Some 25%N))) tr.
Proof.
  destruct (memo_sched (lazy_throw_code exp_hash N.eqb ex_env 2 Mutex picky) picky_threads (in_turn 60)) as [[s tr]|] eqn:Hs; [|vm_compute in Hs; discriminate].
  destruct (memo_sched_reach _ _ _ _ _ Hs) as (ps & rs & H1 & H2). exists ps, rs, s, tr. split; [assumption|]. split; [assumption|].
  vm_compute in Hs. injection Hs as <- <-. split; [|cbn; auto 40].
  repeat constructor.
Qed.
(** ... and with a recursion that throws and catches: f(k) is f(k-1) + 1, f throws at 3, and f(4) catches it *)
Definition catch_def (k : N) : tbody N N :=
  if (k =? 0)%N then TRet 0%N else if (k =? 3)%N then TThrow
  else TAsk (k - 1)%N (fun r => match r with Some v => TRet (v + 1)%N | None => TRet 100%N end).
Definition catch_f (k : N) : option N := if (k <? 3)%N then Some k else if (k =? 3)%N then None else Some (k + 96)%N.
Lemma catch_defines : tdefines N.eqb catch_def N.to_nat catch_f.
Proof.
  split.
  - intros k. unfold catch_def. destruct (N.eqb_spec k 0) as [->|H0]; [reflexivity|]. destruct (N.eqb_spec k 3) as [->|H3]; [reflexivity|].
    cbn [tvalue]. unfold catch_f. destruct (N.ltb_spec k 3).
    + destruct (N.ltb_spec (k - 1) 3); [|lia]. cbn. f_equal. lia.
    + destruct (N.eqb_spec k 3); [contradiction|]. destruct (N.ltb_spec (k - 1) 3); [lia|]. destruct (N.eqb_spec (k - 1) 3) as [Hk|Hk]; cbn; f_equal; lia.
  - intros k. unfold catch_def. destruct (N.eqb_spec k 0) as [->|H0]; [exact I|]. destruct (N.eqb_spec k 3) as [->|H3]; [exact I|]. cbn [tasks_below]. split; [lia|].
    destruct (catch_f (k - 1)); exact I.
  - intros a b H. apply N.eqb_eq in H. subst. reflexivity.
Qed.
Example C59_recursive_example : exists ps rs s tr, p_run exp_hash N.eqb ex_env 2 (p_empty 2) (map OReserve []) = Ok (ps, rs) /\
  reach (memo_throw_code exp_hash N.eqb ex_env 2 SharedMutex catch_def N.to_nat) false (start ps [[MCall 6]; [MCall 3; MContains 3]]%N) s tr /\
  In (ERes (0, 0) (CRes false (Some 102%N))) tr /\ In (ERes (1, 0) (CRes true None)) tr /\ In (ERes (1, 1) (CRes false None)) tr.
Proof.
  destruct (memo_sched (memo_throw_code exp_hash N.eqb ex_env 2 SharedMutex catch_def N.to_nat) [[MCall 6]; [MCall 3; MContains 3]]%N (alternate 100)) as [[s tr]|] eqn:Hs; [|vm_compute in Hs].
  2: discriminate.
  destruct (memo_sched_reach _ _ _ _ _ Hs) as (ps & rs & H1 & H2). exists ps, rs, s, tr. split; [assumption|]. split; [assumption|].
  vm_compute in Hs. injection Hs as _ <-. cbn. auto 20.
Qed.

(** C59 is false of size() in the mode without recursion: f(4) throws twice, nothing is cached, and size() is 2. *)
Theorem C59_size_refuted : exists ps rs s tr, p_run exp_hash N.eqb ex_env 2 (p_empty 2) (map OReserve []) = Ok (ps, rs) /\
  reach (lazy_throw_code exp_hash N.eqb ex_env 2 Mutex picky) false (start ps [[MCall 4; MCall 4]]%N) s tr /\ idle s /\
  flat_map pe (st_shards s) = [] /\ list_sum (map t_size (st_shards s)) = 2.
Proof.
  destruct (memo_sched (lazy_throw_code exp_hash N.eqb ex_env 2 Mutex picky) [[MCall 4; MCall 4]]%N (replicate 60 0)) as [[s tr]|] eqn:Hs; [|vm_compute in Hs; discriminate].
  destruct (memo_sched_reach _ _ _ _ _ Hs) as (ps & rs & H1 & H2). exists ps, rs, s, tr. split; [assumption|]. split; [assumption|].
  vm_compute in Hs. injection Hs as <- <-. split; [|split; vm_compute; reflexivity].
  repeat constructor.
Qed.
Print Assumptions C59_size_refuted.

(** ** memoize_lru *)
(** C59 is false of memoize_lru (one submap, 40 results): 45 calls that succeed, 130 calls of f(64) that throw, and 121
    calls that succeed leave the submap without an empty bucket, and the next call never returns. *)
Definition line_hash (k : N) : N := (128 * k)%N.
Lemma line_key : KeyOK line_hash N.eqb.
Proof.
  split; [apply N.eqb_refl|apply N.eqb_sym| |].
  - intros a b c H1 H2. apply N.eqb_eq in H1, H2. subst. apply N.eqb_refl.
  - intros a b H. apply N.eqb_eq in H. subst. reflexivity.
Qed.
Definition bad64 (k : N) : option N := if (k =? 64)%N then None else Some (k * k)%N.
Definition wear : list N := nums 0 45 ++ replicate 130 64%N ++ nums 45 19 ++ nums 65 101 ++ [192]%N.
Definition new_lru : cache N N := match cache_new line_hash ex_env 0 0 44 40 with Ok (Some c) => c | _ => mkCache [] 0 end.
Definition worn : shard N N :=
  match c_shards new_lru with
  | [s] => match ml_throw_run line_hash N.eqb ex_env bad64 (c_max new_lru) s wear with Ok (s', _) => s' | _ => s end
  | _ => mkShard empty_table [] 0 0
  end.
Theorem C59_memoize_lru_refuted : exists (ks : list N) (k : N) c s rs s',
  cache_new line_hash ex_env 0 0 44 40 = Ok (Some c) /\ c_shards c = [s] /\
  ml_throw_run line_hash N.eqb ex_env bad64 (c_max c) s ks = Ok (s', rs) /\
  forall fuel, find_fuel line_hash N.eqb ex_env fuel (s_tab s') k = Loop.
Proof.
  exists wear, 999%N, new_lru, (match c_shards new_lru with s :: _ => s | _ => mkShard empty_table [] 0 0 end).
  exists (match ml_throw_run line_hash N.eqb ex_env bad64 (c_max new_lru) (match c_shards new_lru with s :: _ => s | _ => mkShard empty_table [] 0 0 end) wear with Ok (_, rs) => rs | _ => [] end).
  exists worn. split; [vm_compute; reflexivity|]. split; [vm_compute; reflexivity|]. split; [vm_compute; reflexivity|].
  apply (stuck_forever _ _ _ _ _ 7).
  - vm_compute. reflexivity.
  - apply Nat.leb_le. vm_compute. reflexivity.
  - vm_compute. reflexivity.
Qed.
Print Assumptions C59_memoize_lru_refuted.
