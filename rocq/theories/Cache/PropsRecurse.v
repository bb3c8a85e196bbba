(** Property theorems about memoize_lru and mt_memoize_lru of functions that call themselves through the cache (C62). *)
From stdpp Require Import list.
From Coq Require Import Arith NArith ZArith Lia ZifyBool ZifyNat.
From Verif.Common Require Import Res Word.
From Verif.Swiss Require Import Group GroupSpec Model Probe Inv TableInv Resize Ops MapSpec History Multi MultiSpec MultiProof MultiHistory PropsTable PropsMulti.
From Verif.Par Require Import Seq SeqProof PropsSeq Conc ConcMap PropsConc.
From Verif.Cache Require Import Lru Memo Recurse.
From Verif.Swiss Require Import FailingProof.
Local Open Scope nat_scope.
Local Open Scope res_scope.

(** C62 is false of memoize_lru.  Any cache with one submap, made by any reserve: let g be the number of elements it
    has room for.  A function whose recursion is g calls deep, f (ks (n + 1)) = w n (f (ks n)), writes to memory that
    was given back: for every hash function, all keys, all element types.  (Nothing is wrong with f; the calls in
    progress each hold a place in the table, so the cache size does not limit their number.) *)
Theorem C62_deep_recursion_refuted : forall (K V : Type) (hash : K -> N) (eqb : K -> K -> bool) (E : env)
    (r : N) (t : table K nid) (own max : nat) (def : K -> body K V) (ks : nat -> K) (w : nat -> V -> V) (v : V),
  real_env E -> KeyOK hash eqb -> op_ok E (OReserve (K := K) (V := nid) r) -> reserve hash E empty_table r = Ok t -> 2 < max ->
  (alloc_size E (2 * N.of_nat (t_cap t) + 1) <= e_max_bytes E)%N ->
  let g := CapacityToGrowth (g_width (e_group E)) (t_cap t) in
  def (ks 0) = BRet v -> (forall n, n < g -> def (ks (S n)) = BAsk (ks n) (fun v => BRet (w n v))) ->
  rec_call hash eqb E def max (S g) (mkShard t [] own 0) (ks g) = UB.
Proof.
  intros K V hash eqb E r t own max def ks w v HE HK Hop Hr Hmax Ha g H0 Hn. pose proof (real_env_ok E HE) as HE'.
  destruct Hop as (Hr0 & Hr1 & Hr2).
  destruct (preserve (V := nid) hash eqb E HE' HK empty_table r (or_introl eq_refl) (Nat.le_refl _) Hr0 Hr1 Hr2) as [Hb|(t' & Hr' & Hp & Hs & Hel & Hx)]; [congruence|].
  rewrite Hr in Hr'. injection Hr' as <-. specialize (Hx (or_introl eq_refl)).
  assert (Hcap : t_cap t <> 0).
  { destruct (g2l_eq (g_width (e_group E)) r ltac:(lia) Hr1) as (m & Hm & Hge & Hm63 & _). pose proof (Hr2 m Hm) as Hnw.
    revert Hr. unfold reserve. rewrite Hm. cbn [rbind]. unfold rehash. destruct (N.eqb_spec m 0) as [|_]; [lia|].
    cbn [andb orb t_cap t_size empty_table N.of_nat]. rewrite N.max_l by lia. assert (Hm64 : (m < 2 ^ 64)%N) by (change (2 ^ 64)%N with (2 * 2 ^ 63)%N; lia).
    destruct (normalize_ge m Hm64) as [_ Hge1]. destruct (N.ltb_spec 0 (NormalizeCapacity m)) as [Hlt|]; [|lia].
    destruct (resize_ok hash eqb E HE' HK (empty_table : table K nid) (NormalizeCapacity m)) as [[Hb _]|(u & Hu & _ & _ & _ & Hcu & _)].
    - left; reflexivity.
    - apply normalize_valid. exact Hm63.
    - assumption.
    - change (length (elems (t_slots (empty_table : table K nid)))) with 0. lia.
    - rewrite Hb. discriminate.
    - rewrite Hu. intros [= <-]. lia. }
  destruct Hp as [->|Hp]; [exfalso; apply Hcap; reflexivity|]. destruct Hx as [->|Hx]; [exfalso; apply Hcap; reflexivity|].
  assert (He : elems (t_slots t) = []) by (apply Permutation_nil; symmetry; exact Hel).
  destruct (growth_facts E HE' _ (pinv_cap hash eqb E t Hp)) as (Hg1 & _).
  destruct (outer_calls hash eqb E HE' HK def max ks w v (t_cap t) ltac:(lia) H0 Ha g Hn (mkShard t [] own 0) Hp Hx He) as [(s' & v' & _ & _ & Hz)|Hub]; try reflexivity.
  - cbn [s_tab]. destruct Hx as [_ Hx]. rewrite Hs in Hx. cbn [empty_table t_size] in Hx. subst g. lia.
  - subst g. lia.
  - exact Hub.
Qed.
Print Assumptions C62_deep_recursion_refuted.

Lemma construct_place {K V} p (e : K * V) (t t2 : table K V) : construct_at p e t = Ok t2 ->
  (let* sl := store (t_slots t) p (Some e) in Ok (mkTable (t_ctrl t) sl (t_size t) (t_cap t) (t_growth t))) = Ok t2.
Proof. unfold construct_at, construct. intros Hc. destruct (load (t_slots t) p) as [[?|]| | | |]; cbn [rbind] in Hc; try discriminate. exact Hc. Qed.
(** a function that does not ask the cache: the model of C20 and C21 *)
Theorem C62_not_recursive_partial : forall (K V : Type) (hash : K -> N) (eqb : K -> K -> bool) (E : env)
    (f : K -> V) (max n : nat) (s s' : @shard K V) (k : K) (v : V) (b : bool),
  ml_call hash eqb E f max s k = Ok (s', (v, b)) -> rec_call hash eqb E (fun k => BRet (f k)) max (S n) s k = Ok (s', v).
Proof.
  intros K V hash eqb E f max n s s' k v b H. unfold ml_call in H. cbn [rec_call]. destruct (find_key hash eqb E (s_tab s) k) as [[p|]| | | |]; cbn [rbind] in *; try discriminate.
  - destruct (deref (s_tab s) p) as [kv| | | |]; cbn [rbind] in *; try discriminate. destruct (node_at (s_list s) (snd kv)) as [e| | | |]; cbn [rbind] in *; try discriminate.
    destruct (splice_front (s_list s) (snd kv)) as [l| | | |]; cbn [rbind] in *; try discriminate. injection H as <- <- <-. reflexivity.
  - unfold add_new in H. destruct (prepare_insert hash E (s_tab s) (hash k)) as [[t1 p]| | | |]; cbn [rbind] in *; try discriminate.
    cbn [run_body rbind with_tab s_tab s_own s_next s_list]. rewrite Nat.eqb_refl. cbn [negb].
    set (i := (s_own s, s_next s) : nid) in *. change (s_own s, s_next s) with i in H.
    destruct (construct_at p (k, i) t1) as [t2| | | |] eqn:Hc; cbn [rbind] in H; try discriminate.
    assert (Hpl : place p (k, i) t1 = Ok t2).
    { apply construct_place. exact Hc. }
    rewrite Hpl. cbn [rbind]. set (d := if max <=? length ((i, (k, f k)) :: s_list s) then _ else _) in *.
    destruct d as [[del l2]| | | |]; cbn [rbind] in *; try discriminate. destruct (publish_at E p (hash k) t2) as [t3| | | |]; cbn [rbind] in *; try discriminate.
    set (x := match del with Some dk => _ | None => _ end) in *. destruct x as [t4| | | |]; cbn [rbind] in *; try discriminate. injection H as <- <- <-. reflexivity.
Qed.

(** One more: recursion one call deep, with keys that collide.  f 1 asks for f 0; both have the same hash.  Both
    calls are given the same slot: afterwards size() is 2 though one key can be found, and f 0 is computed again. *)
Definition c62_def (k : N) : body N N := if (k =? 0)%N then BRet 100%N else BAsk (k - 1)%N (fun v => BRet (v + 1)%N).
Definition c62_hash (k : N) : N := 77%N.
Lemma c62_key : KeyOK c62_hash N.eqb.
Proof. split; [apply N.eqb_refl|apply N.eqb_sym| |reflexivity]. intros a b c H1 H2. apply N.eqb_eq in H1, H2. subst. apply N.eqb_refl. Qed.
Theorem C62_shallow_recursion_refuted : exists (t : table N nid) s,
  reserve c62_hash ex_env empty_table 4 = Ok t /\
  rec_call c62_hash N.eqb ex_env c62_def 4 2 (mkShard t [] 0 0) 1%N = Ok (s, 101%N) /\
  t_size (s_tab s) = 2 /\ map fst (elems (t_slots (s_tab s))) = [1%N] /\
  find_key c62_hash N.eqb ex_env (s_tab s) 0%N = Ok None.
Proof. eexists _, _. do 4 (split; [vm_compute; reflexivity|]). vm_compute. reflexivity. Qed.
Print Assumptions C62_shallow_recursion_refuted.

(** C62_deep_recursion_refuted: memoize_lru of f 0 = 100, f (n + 1) = f n + 1 with 4 entries; f 7. *)
Example C62_deep_example : exists t : table N nid,
  real_env ex_env /\ KeyOK exp_hash N.eqb /\ op_ok ex_env (OReserve (K := N) (V := nid) 4) /\ reserve exp_hash ex_env empty_table 4 = Ok t /\
  (alloc_size ex_env (2 * N.of_nat (t_cap t) + 1) <= e_max_bytes ex_env)%N /\ CapacityToGrowth (g_width (e_group ex_env)) (t_cap t) = 7 /\
  c62_def 0%N = BRet 100%N /\ (forall n, c62_def (N.of_nat (S n)) = BAsk (N.of_nat n) (fun v => BRet (v + 1)%N)) /\
  rec_call exp_hash N.eqb ex_env c62_def 4 8 (mkShard t [] 0 0) 7%N = UB /\
  exists s, rec_call exp_hash N.eqb ex_env c62_def 4 8 (mkShard t [] 0 0) 5%N = Ok (s, 105%N).
Proof.
  eexists. split; [apply ex_env_real|]. split; [apply exp_key|]. split.
  { split; [discriminate|]. split; [reflexivity|]. intros m Hm. vm_compute in Hm. injection Hm as <-. vm_compute. repeat split; congruence. }
  split; [vm_compute; reflexivity|]. split; [vm_compute; discriminate|]. split; [vm_compute; reflexivity|]. split; [reflexivity|]. split.
  { intros n. unfold c62_def. rewrite (proj2 (N.eqb_neq (N.of_nat (S n)) 0)) by lia. replace (N.of_nat (S n) - 1)%N with (N.of_nat n) by lia. reflexivity. }
  split; [vm_compute; reflexivity|]. eexists. vm_compute. reflexivity.
Qed.

(** steps of a single thread *)
Lemma one_lock {T O R} (code : O -> cmd T R) pref s0 ts lk o m c tr : lk !! m = Some (mkLock None []) ->
  reach code pref s0 (mkState ts lk [mkThread [] (Some (o, CLock m Excl c)) 0]) tr ->
  reach code pref s0 (mkState ts (<[m := mkLock (Some 0) []]> lk) [mkThread [] (Some (o, c)) 0]) (tr ++ []).
Proof.
  intros Hl H. eapply (reach_step _ _ _ _ _ 0); [exact H|]. unfold step. cbn [st_threads lookup list_lookup th_cur st_locks]. rewrite Hl. reflexivity.
Qed.
Lemma one_read {T O R} (code : O -> cmd T R) pref s0 ts lk o m k t tr : ts !! m = Some t ->
  reach code pref s0 (mkState ts lk [mkThread [] (Some (o, CRead m k)) 0]) tr ->
  reach code pref s0 (mkState ts lk [mkThread [] (Some (o, k t)) 0]) (tr ++ []).
Proof.
  intros Hl H. eapply (reach_step _ _ _ _ _ 0); [exact H|]. unfold step. cbn [st_threads lookup list_lookup th_cur st_shards]. rewrite Hl. reflexivity.
Qed.
Lemma one_write {T O R} (code : O -> cmd T R) pref s0 ts lk o m g k t tr : ts !! m = Some t ->
  reach code pref s0 (mkState ts lk [mkThread [] (Some (o, CWrite m g k)) 0]) tr ->
  reach code pref s0 (mkState (<[m := g t]> ts) lk [mkThread [] (Some (o, k t)) 0]) (tr ++ []).
Proof.
  intros Hl H. eapply (reach_step _ _ _ _ _ 0); [exact H|]. unfold step. cbn [st_threads lookup list_lookup th_cur st_shards]. rewrite Hl. reflexivity.
Qed.

(** And of mt_memoize_lru with std::mutex: any key that is not cached, whose function asks for any key of the same
    submap.  The thread locks a mutex that it owns. *)
Theorem C62_self_lock_refuted : forall (K V : Type) (hash : K -> N) (eqb : K -> K -> bool) (E : env) (lg n : nat) (pref : bool)
    (def : K -> body K V) (ts : list (@shard K V)) (s0 : @shard K V) (k k' : K) (c : V -> body K V) tp,
  def k = BAsk k' c -> subidx lg (hash k') = subidx lg (hash k) ->
  ts !! subidx lg (hash k) = Some s0 -> find_key hash eqb E (s_tab s0) k = Ok None -> prepare_insert hash E (s_tab s0) (hash k) = Ok tp ->
  let code := fun k => mt_call hash eqb E lg def (S (S n)) k (fun v => CDone (Some v)) in
  exists s tr, reach code pref (start ts [[k]]) s tr /\ step code pref s 0 = Some UB.
Proof.
  intros K V hash eqb E lg n pref def ts s0 k k' c tp Hd Hsame Hts Hf Hp code. set (m := subidx lg (hash k)) in *.
  assert (Hml : m < length ts) by (eapply lookup_lt_Some; exact Hts).
  set (lk := replicate (length ts) (mkLock None [])).
  assert (Hlk : lk !! m = Some (mkLock None [])) by (apply lookup_replicate_2; exact Hml).
  assert (Hlk1 : <[m := mkLock (Some 0) []]> lk !! m = Some (mkLock (Some 0) [])) by (apply list_lookup_insert; unfold lk; rewrite replicate_length; exact Hml).
  assert (H1 : reach code pref (start ts [[k]]) (mkState ts lk [mkThread [] (Some (k, code k)) 0]) ([] ++ [EInv (0, 0) k])) by (eapply (reach_step _ _ _ _ _ 0); [apply reach_start|reflexivity]).
  revert H1. generalize ([] ++ [EInv (O := K) (R := option V) (0, 0) k]). intros tr H1.
  set (n1 := S n) in *. change (code k) with (mt_call hash eqb E lg def (S n1) k (fun v => CDone (Some v))) in H1. clearbody code.
  cbn [mt_call] in H1. fold m in H1. apply (one_lock _ _ _ _ _ _ _ _ _ Hlk) in H1. apply (one_read _ _ _ _ _ _ _ _ _ _ Hts) in H1. cbv beta in H1. rewrite Hf in H1. cbn [with_res] in H1.
  apply (one_write _ _ _ _ _ _ _ _ _ _ _ Hts) in H1. cbv beta in H1. rewrite Hp in H1. cbn [with_res] in H1. rewrite Hd in H1. cbn [mt_body] in H1. subst n1. cbn [mt_call] in H1.
  rewrite Hsame in H1. eexists _, _. split; [exact H1|]. unfold step. cbn [st_threads lookup list_lookup th_cur st_locks]. rewrite Hlk1. reflexivity.
Qed.
Print Assumptions C62_self_lock_refuted.
(** a new cache of four submaps; f 8 = f 4 + 1, and 8 and 4 are of one submap with this hash function *)
Example C62_self_lock_example : exists (c : cache N N) s0 tp,
  cache_new exp_hash ex_env 2 0 4 4 = Ok (Some c) /\ subidx 2 (exp_hash 4) = subidx 2 (exp_hash 8) /\
  c_shards c !! subidx 2 (exp_hash 8) = Some s0 /\ find_key exp_hash N.eqb ex_env (s_tab s0) 8%N = Ok None /\
  prepare_insert exp_hash ex_env (s_tab s0) (exp_hash 8) = Ok tp.
Proof. eexists _, _, _. split; [vm_compute; reflexivity|]. do 3 (split; [vm_compute; reflexivity|]). vm_compute. reflexivity. Qed.
Print Assumptions C62_not_recursive_partial.
