(** Threads calling one mt_lru_cache (include/gtl/lru_cache.hpp:59-96) or mt_memoize_lru (include/gtl/memoize.hpp:212-245):
    calls as lock, unlock and access steps on the submaps. *)
From stdpp Require Import list.
From Coq Require Import Arith NArith ZArith Lia.
From Verif.Common Require Import Res Word.
From Verif.Swiss Require Import Group GroupSpec Model Probe Inv TableInv Resize Ops MapSpec History.
From Verif.Par Require Import Seq SeqProof Conc ConcProof ConcMap.
From Verif.Cache Require Import Lru LruSpec LruProof LruCache.
Local Open Scope nat_scope.
Local Open Scope res_scope.

(** ** The calls threads may make concurrently.  size, reserve and set_cache_size touch state that is not protected
    by the submaps' mutexes (sizes of all submaps, _max_size). *)
Inductive mtop (K V : Type) := TGet (k : K) | TInsert (k : K) (v : V) | TExists (k : K) | TCall (k : K) | TContains (k : K).
Arguments TGet {K V}.  Arguments TInsert {K V}.  Arguments TExists {K V}.  Arguments TCall {K V}.  Arguments TContains {K V}.
Definition mt_key {K V} (o : mtop K V) : K := match o with TGet k | TInsert k _ | TExists k | TCall k | TContains k => k end.
Definition to_lop {K V} (o : mtop K V) : lop K V :=
  match o with TGet k => LGet k | TInsert k v => LInsert k v | TExists k => LExists k | TCall k => LCall k | TContains k => LContains k end.

Section MtLru.
Context {K V : Type} (hash : K -> N) (eqb : K -> K -> bool) (E : env) (lg : nat) (dc : disc).
Context (f : K -> V) (max : nat).
Notation shard := (shard K V).
Notation cmd := (cmd shard (lout V)).

(** [CWrite] runs a whole operation in one step: the thread owns the mutex exclusively *)
Definition whole (m : nat) (o : lop K V) : cmd :=
  CLock m Excl (CWrite m (fun s => match shard_exec hash eqb E f max s o with Ok (s', _) => s' | _ => s end)
                         (fun s => match shard_exec hash eqb E f max s o with Ok (_, r) => CUnlock m Excl (CDone r) | _ => CFail end)).
(** a lookup that only reads *)
Definition look (m : nat) (d : mode) (o : lop K V) : cmd :=
  CLock m d (CRead m (fun s => match shard_exec hash eqb E f max s o with Ok (_, r) => CUnlock m d (CDone r) | _ => CFail end)).
Definition mt_code (o : mtop K V) : cmd :=
  let m := Seq.subidx lg (hash (mt_key o)) in
  match o with
  | TGet k =>   (* get (63-70): if_contains, which locks like a reader (phmap.hpp:3861-3863); its function splices the list *)
      CLock m (smode dc) (CRead m (fun s =>
        match find_key hash eqb E (s_tab s) k with
        | Ok None => CUnlock m (smode dc) (CDone (LVal None))
        | Ok (Some _) => CWrite m (fun s => match lru_get hash eqb E s k with Ok (s', _) => s' | _ => s end)
                                  (fun s => match lru_get hash eqb E s k with Ok (_, v) => CUnlock m (smode dc) (CDone (LVal v)) | _ => CFail end)
        | _ => CFail
        end))
  | TExists k => look m (smode dc) (LExists k)             (* exists (59-61): contains *)
  | TContains k => look m (smode dc) (LContains k)         (* memoize.hpp:212-217: if_contains *)
  | TInsert k v => whole m (LInsert k v)                   (* insert (72-96): lazy_emplace_l, exclusive (phmap.hpp:3943-3969) *)
  | TCall k => whole m (LCall k)                           (* memoize.hpp:219-245 *)
  end.

(** ** with std::mutex every call is one exclusive section, with the effect of the single-threaded operation *)
Context (HE : env_ok E) (HK : KeyOK hash eqb).
Definition mt_shard (o : mtop K V) : nat := Seq.subidx lg (hash (mt_key o)).
Definition mt_spec (o : mtop K V) (s : shard) (r : lout V) (s' : shard) : Prop := shard_exec hash eqb E f max s (to_lop o) = Ok (s', r).
Notation sinv := (@sinv K V hash eqb E lg).
Lemma to_lop_key (o : mtop K V) : lop_key (to_lop o) = Some (mt_key o).
Proof. destruct o; reflexivity. Qed.
Lemma mt_code_ok (Hdc : dc = Mutex) o : Conc.call_ok mt_code mt_shard mt_spec sinv o.
Proof using HE HK.
  assert (Hd : smode dc = Excl) by (rewrite Hdc; reflexivity).
  assert (Hex : forall s, sinv (mt_shard o) s -> exists s' r, shard_exec hash eqb E f max s (to_lop o) = Ok (s', r) /\ sinv (mt_shard o) s').
  { intros s Hs. destruct (shard_exec_ok hash eqb E lg HE HK f max (mt_shard o) s (to_lop o) (mt_key o) Hs (to_lop_key o) eq_refl) as (s' & r & He & Hi & _). eauto. }
  assert (Hend : forall c, (forall s s' r, sinv (mt_shard o) s -> shard_exec hash eqb E f max s (to_lop o) = Ok (s', r) -> sec (mt_shard o) Excl c s = Some (s', CDone r)) ->
    section_ok mt_shard mt_spec sinv o Excl c).
  { intros c H. constructor. intros s Hs. destruct (Hex s Hs) as (s' & r & He & Hi). exists s', (CDone r). split; [auto|]. left. exists r. split; [reflexivity|]. split; [assumption|]. split; [assumption|discriminate]. }
  assert (Hunl : forall (s : shard) (r : lout V), sec (mt_shard o) Excl (CUnlock (mt_shard o) Excl (CDone r)) s = Some (s, CDone r)).
  { intros s r. cbn [sec]. rewrite Nat.eqb_refl, bool_decide_eq_true_2 by reflexivity. reflexivity. }
  destruct o as [k|k v|k|k|k]; unfold Conc.call_ok; cbn [mt_code]; unfold whole, look; rewrite ?Hd.
  - eexists _, _. split; [reflexivity|]. apply Hend. intros s s' r Hs He. cbn [sec to_lop shard_exec] in *. change (Seq.subidx lg (hash (mt_key (TGet k)))) with (mt_shard (TGet k)).
    rewrite Nat.eqb_refl. unfold lru_get in He. destruct (find_key hash eqb E (s_tab s) k) as [[p|]| | | |] eqn:Hf; cbn [rbind] in He; try discriminate.
    + cbn [sec]. rewrite Nat.eqb_refl. unfold lru_get. rewrite Hf. cbn [rbind].
      match goal with |- context [let* kv := ?a in _] => destruct (let* kv := a in _) as [[s2 v2]| | | |] eqn:Hx; cbn [rbind] in *; try discriminate end.
      injection He as <- <-. apply Hunl.
    + injection He as <- <-. apply Hunl.
  - eexists _, _. split; [reflexivity|]. apply Hend. intros s s' r Hs He. cbn [sec]. change (Seq.subidx lg (hash (mt_key (TInsert k v)))) with (mt_shard (TInsert k v)).
    rewrite Nat.eqb_refl. cbn [to_lop] in He. rewrite He. apply Hunl.
  - eexists _, _. split; [reflexivity|]. apply Hend. intros s s' r Hs He. cbn [sec]. change (Seq.subidx lg (hash (mt_key (TExists k)))) with (mt_shard (@TExists K V k)).
    rewrite Nat.eqb_refl. cbn [to_lop] in He. rewrite He. rewrite Hunl. do 2 f_equal. cbn [shard_exec] in He.
    destruct (lru_exists hash eqb E s k); cbn [rbind] in He; congruence.
  - eexists _, _. split; [reflexivity|]. apply Hend. intros s s' r Hs He. cbn [sec]. change (Seq.subidx lg (hash (mt_key (TCall k)))) with (mt_shard (@TCall K V k)).
    rewrite Nat.eqb_refl. cbn [to_lop] in He. rewrite He. apply Hunl.
  - eexists _, _. split; [reflexivity|]. apply Hend. intros s s' r Hs He. cbn [sec]. change (Seq.subidx lg (hash (mt_key (TContains k)))) with (mt_shard (@TContains K V k)).
    rewrite Nat.eqb_refl. cbn [to_lop] in He. rewrite He. rewrite Hunl. do 2 f_equal. cbn [shard_exec] in He.
    destruct (ml_contains hash eqb E s k); cbn [rbind] in He; congruence.
Qed.

(** calls one at a time are the single-threaded program *)
Definition e_op (e : entry (mtop K V) (lout V)) : lop K V := to_lop (snd (fst e)).
Lemma seq_to_cache ss (L : list (entry (mtop K V) (lout V))) ss' : seqrun mt_shard mt_spec ss L ss' ->
  cache_run hash eqb E lg f (mkCache ss max) (map e_op L) = Ok (mkCache ss' max, map snd L).
Proof using.
  induction 1 as [ss|ss L ss' id o r s s' Hrun IH Hs Hst]; [reflexivity|].
  rewrite !map_app.
  assert (Happ : forall os1 os2 c c1 rs1 c2 rs2, cache_run hash eqb E lg f c os1 = Ok (c1, rs1) -> cache_run hash eqb E lg f c1 os2 = Ok (c2, rs2) ->
    cache_run hash eqb E lg f c (os1 ++ os2) = Ok (c2, rs1 ++ rs2)).
  { clear. induction os1 as [|o os1 IH]; intros os2 c c1 rs1 c2 rs2 H1 H2; cbn [app cache_run] in *; [injection H1 as -> <-; exact H2|].
    destruct (cache_exec hash eqb E lg f c o) as [[c3 r]| | | |]; cbn [rbind] in *; try discriminate.
    destruct (cache_run hash eqb E lg f c3 os1) as [[c4 rs4]| | | |] eqn:H3; cbn [rbind] in *; try discriminate. injection H1 as -> <-.
    rewrite (IH _ _ _ _ _ _ H3 H2). reflexivity. }
  eapply Happ; [exact IH|]. cbn [map cache_run snd]. unfold cache_exec, e_op. cbn [fst snd]. rewrite to_lop_key. cbn [c_shards c_max].
  unfold load, of_option. fold (mt_shard o). rewrite Hs. cbn [rbind]. unfold mt_spec in Hst. rewrite Hst. reflexivity.
Qed.
End MtLru.
