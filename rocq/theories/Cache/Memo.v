(** mt_memoize and memoize (include/gtl/memoize.hpp:74-154) called by any number of threads: calls as lock, unlock
    and access steps on the submaps of the cache, a parallel_flat_hash_map without auxiliary container. *)
From stdpp Require Import list.
From Coq Require Import Arith NArith ZArith Lia.
From Verif.Common Require Import Res Word.
From Verif.Swiss Require Import Group GroupSpec Model Probe Inv TableInv Resize Ops MapSpec History Multi MultiSpec MultiProof.
From Verif.Par Require Import Seq SeqProof Conc ConcProof ConcSafe ConcMap ConcMapProof.
Local Open Scope nat_scope.
Local Open Scope res_scope.

Inductive mop (K : Type) := MCall (k : K) | MContains (k : K).
Arguments MCall {K}.  Arguments MContains {K}.
Definition m_key {K} (o : mop K) : K := match o with MCall k | MContains k => k end.

(** ** What a user sees.  Results: [CRes evaluated (Some v)], [CRes false None] (contains, absent), [CThrow]. *)
Section Spec.
Context {K V : Type} (eqb : K -> K -> bool).
(** a function given by its recursion: it returns, or asks for the value at another argument and goes on *)
Inductive body (K V : Type) := BRet (v : V) | BAsk (k : K) (c : V -> body K V).
(** the value of a body, when the questions are answered by f *)
Fixpoint value (f : K -> V) (b : body K V) : V := match b with BRet _ _ v => v | BAsk _ _ k c => value f (c (f k)) end.
(** all questions that a body asks, when answered by f, have a rank below n *)
Fixpoint asks_below (f : K -> V) (rank : K -> nat) (n : nat) (b : body K V) : Prop :=
  match b with BRet _ _ _ => True | BAsk _ _ k c => rank k < n /\ asks_below f rank n (c (f k)) end.
(** f is the function defined by the recursion [def], and the recursion terminates *)
Record defines (def : K -> body K V) (rank : K -> nat) (f : K -> V) : Prop := {
  d_value : forall k, f k = value f (def k);
  d_rank : forall k, asks_below f rank (rank k) (def k);
  d_eqb : forall a b, eqb a b = true -> f a = f b
}.
(** what a call may answer *)
Definition right_answer (f : K -> V) (o : mop K) (r : cout V) : Prop :=
  match o with
  | MCall k => (exists b, r = CRes b (Some (f k))) \/ r = CThrow
  | MContains k => r = CRes false (Some (f k)) \/ r = CRes false None
  end.
End Spec.
Arguments BRet {K V}.  Arguments BAsk {K V}.

Section Memo.
Context {K V : Type} (hash : K -> N) (eqb : K -> K -> bool) (E : env) (lg : nat) (dc : disc).
Notation table := (table K V).
Notation cmd := (cmd table (cout V)).
Notation subidx := (Seq.subidx lg).

(* contains (93-98): if_contains *)
Definition contains_code (k : K) : cmd :=
  let m := subidx (hash k) in
  CLock m (smode dc) (find_in hash eqb E m k (fun r =>
    match r with
    | None => ret m (smode dc) (CRes false None)
    | Some p => see m p (fun e => ret m (smode dc) (CRes false (Some (snd e))))
    end)).

(** ** the mode for functions that are not recursive (102-118): lazy_emplace_l; f runs under the exclusive lock,
    after prepare_insert and before the element is constructed *)
Definition lazy_code (f : K -> V) (o : mop K) : cmd :=
  match o with
  | MCall k =>
      let m := subidx (hash k) in
      CLock m Excl (find_in hash eqb E m k (fun r =>
        match r with
        | Some p => see m p (fun e => ret m Excl (CRes false (Some (snd e))))
        | None => new_elt hash E m k (f k) (ret m Excl (CRes true (Some (f k)))) (ret m Excl CThrow)
        end))
  | MContains k => contains_code k
  end.

(** ** the other mode (119-130): if_contains, f outside the lock, emplace.  f may call the memoized function: [def]
    is its recursion; [n] bounds the depth (a call that goes deeper would be [CFail]).  An exception from an inner
    call leaves through all of them.  With NullMutex (gtl::memoize) there is one thread. *)
Fixpoint run_body (call : K -> (V -> cmd) -> cmd) (b : body K V) (cont : V -> cmd) : cmd :=
  match b with
  | BRet v => cont v
  | BAsk k c => call k (fun v => run_body call (c v) cont)
  end.
Fixpoint memo_call (def : K -> body K V) (n : nat) (k : K) (cont : V -> cmd) {struct n} : cmd :=
  let m := subidx (hash k) in
  CLock m (smode dc) (find_in hash eqb E m k (fun r =>
    match r with
    | Some p => see m p (fun e => CUnlock m (smode dc) (cont (snd e)))
    | None => CUnlock m (smode dc)
        match n with
        | O => CFail
        | S n' => run_body (memo_call def n') (def k) (fun v =>
            CLock m Excl (find_in hash eqb E m k (fun r2 =>
              match r2 with
              | Some _ => CUnlock m Excl (cont v)
              | None => new_elt hash E m k v (CUnlock m Excl (cont v)) (CUnlock m Excl (CDone CThrow))
              end)))
        end
    end)).
Definition memo_code (def : K -> body K V) (rank : K -> nat) (o : mop K) : cmd :=
  match o with
  | MCall k => memo_call def (S (rank k)) k (fun v => CDone (CRes false (Some v)))
  | MContains k => contains_code k
  end.

(** ** proofs *)
Context (HE : env_ok E) (HK : KeyOK hash eqb) (f : K -> V) (Hf : forall a b, eqb a b = true -> f a = f b).
Set Default Proof Using "HE HK Hf".
Definition mgood (m : nat) (t : table) : Prop := sgood hash eqb E lg m t /\ forall e, In e (pe t) -> snd e = f (fst e).
Lemma sec_unlock m d (c : cmd) (t : table) : sec m d (CUnlock m d c) t = Some (t, c).
Proof using. cbn [sec]. rewrite Nat.eqb_refl, bool_decide_eq_true_2 by reflexivity. reflexivity. Qed.
Lemma found t k p e m : mgood m t -> deref t p = Ok e -> s_find eqb (pe t) k = Some e -> snd e = f k.
Proof. intros [_ H] Hd Hs. apply s_find_some in Hs. destruct Hs as [Hin Hk]. rewrite (H e Hin). symmetry. apply Hf. assumption. Qed.
Lemma mnew t k m fin thr : mgood m t -> subidx (hash k) = m -> find_key hash eqb E t k = Ok None -> s_find eqb (pe t) k = None ->
  exists t' b, sec m Excl (new_elt hash E m k (f k) fin thr) t = sec m Excl (if b : bool then fin else thr) t' /\ mgood m t' /\
    pe t' ≡ₚ (if b then (k, f k) :: pe t else pe t).
Proof.
  intros [Hg Hv] Hm Hfk Hs. destruct (new_spec hash eqb E HE HK t m k (f k) fin thr (proj1 Hg) Hfk Hs) as (t' & b & Hsec & Hg' & Hp').
  exists t', b. split; [assumption|]. split; [|assumption]. split; [split; [assumption|]|].
  - destruct b; [eapply (keys_new hash eqb E lg); eassumption|eapply (keys_same hash eqb E lg); eassumption].
  - intros e He. rewrite Hp' in He. destruct b; [destruct He as [<-|He]; [reflexivity|]|]; auto.
Qed.

(** *** the recursive mode *)
Notation n := (num_tables lg).
Notation safe := (@safe table (cout V) n mgood).
Lemma contains_safe (q : cout V -> Prop) k : q (CRes false None) -> q (CRes false (Some (f k))) -> safe q (contains_code k).
Proof.
  intros H1 H2. apply safe_lock; [apply subidx_lt|]. intros t Ht. destruct (find_spec hash eqb E HE HK t k (proj1 (proj1 Ht))) as (r & Hfk & Hr).
  unfold find_in. rewrite (sec_rd _ _ _ _ _ _ Hfk). destruct r as [p|].
  - destruct Hr as (e & Hd & Hs). unfold see. rewrite (sec_rd _ _ _ _ _ _ Hd), sec_ret. eexists _, _. split; [reflexivity|]. split; [assumption|].
    constructor. rewrite (found _ _ _ _ _ Ht Hd Hs). assumption.
  - rewrite sec_ret. eexists _, _. split; [reflexivity|]. split; [assumption|]. constructor. assumption.
Qed.
Lemma memo_call_safe def rank (Hdef : defines eqb def rank f) (q : cout V -> Prop) (Hq : q CThrow) :
  forall d k cont, rank k < d -> safe q (cont (f k)) -> safe q (memo_call def d k cont).
Proof.
  induction d as [|d IH]; intros k cont Hr Hc; [lia|]. cbn [memo_call]. apply safe_lock; [apply subidx_lt|]. intros t Ht.
  destruct (find_spec hash eqb E HE HK t k (proj1 (proj1 Ht))) as (r & Hfk & Hrr). unfold find_in at 1. rewrite (sec_rd _ _ _ _ _ _ Hfk). destruct r as [p|].
  - destruct Hrr as (e & Hd & Hs). unfold see. rewrite (sec_rd _ _ _ _ _ _ Hd), sec_unlock. eexists _, _. split; [reflexivity|]. split; [assumption|].
    rewrite (found _ _ _ _ _ Ht Hd Hs). assumption.
  - rewrite sec_unlock. eexists _, _. split; [reflexivity|]. split; [assumption|].
    assert (Hrun : forall b cc, asks_below f rank d b -> safe q (cc (value f b)) -> safe q (run_body (memo_call def d) b cc)).
    { induction b as [v|k2 c IHb]; intros cc Ha Hv; [exact Hv|]. cbn [run_body asks_below value] in *. destruct Ha as [Ha1 Ha2]. apply IH; [assumption|]. apply IHb; assumption. }
    assert (Hmono : forall b a a', a <= a' -> asks_below f rank a b -> asks_below f rank a' b).
    { clear. induction b as [v|k2 c IHb]; intros a a' Hle Ha; [exact I|]. cbn in *. destruct Ha as [Ha1 Ha2]. split; [lia|eauto]. }
    apply Hrun; [apply (Hmono _ (rank k)); [lia|apply (d_rank _ _ _ _ Hdef)]|]. rewrite <- (d_value _ _ _ _ Hdef k).
    apply safe_lock; [apply subidx_lt|]. intros t2 Ht2.
    destruct (find_spec hash eqb E HE HK t2 k (proj1 (proj1 Ht2))) as (r2 & Hfk2 & Hrr2). unfold find_in. rewrite (sec_rd _ _ _ _ _ _ Hfk2). destruct r2 as [p2|].
    + rewrite sec_unlock. eexists _, _. split; [reflexivity|]. split; assumption.
    + destruct (mnew t2 k (subidx (hash k)) (CUnlock (subidx (hash k)) Excl (cont (f k))) (CUnlock (subidx (hash k)) Excl (CDone CThrow)) Ht2 eq_refl Hfk2 Hrr2) as (t3 & b & Hsec & Hg3 & _).
      rewrite Hsec. destruct b; rewrite sec_unlock; (eexists _, _; split; [reflexivity|]; split; [assumption|]); [assumption|constructor; assumption].
Qed.
Lemma memo_code_safe def rank (Hdef : defines eqb def rank f) o : safe (right_answer f o) (memo_code def rank o).
Proof.
  destruct o as [k|k]; cbn [memo_code right_answer].
  - apply (memo_call_safe def rank Hdef); [right; reflexivity|lia|]. constructor. left. eauto.
  - apply contains_safe; cbn; auto.
Qed.

(** *** the mode for functions that are not recursive *)
Definition mstep (a : list (K * V)) (o : mop K) (r : cout V) (a' : list (K * V)) : Prop :=
  match o, s_find eqb a (m_key o) with
  | MCall k, Some e => r = CRes false (Some (snd e)) /\ a' = a
  | MCall k, None => (r = CRes true (Some (f k)) /\ a' = (k, f k) :: a) \/ (r = CThrow /\ a' = a)
  | MContains k, e => r = CRes false (option_map snd e) /\ a' = a
  end.
Definition mshard (o : mop K) : nat := subidx (hash (m_key o)).
Definition mspec (o : mop K) (t : table) (r : cout V) (t' : table) : Prop := (exists a', mstep (pe t) o r a' /\ pe t' ≡ₚ a') /\ mgood (mshard o) t /\ mgood (mshard o) t'.
Lemma lazy_code_ok o : call_ok (lazy_code f) mshard mspec mgood o.
Proof.
  assert (Hend : forall d c, (forall t, mgood (mshard o) t -> exists t' r, sec (mshard o) d c t = Some (t', CDone r) /\ (exists a', mstep (pe t) o r a' /\ pe t' ≡ₚ a') /\ mgood (mshard o) t') ->
    section_ok mshard mspec mgood o d c).
  { intros d c H. constructor. intros t Ht. destruct (H t Ht) as (t' & r & Hs & Hsp & Hg). exists t', (CDone r). split; [assumption|].
    left. exists r. split; [reflexivity|]. split; [split; [assumption|split; assumption]|]. split; [assumption|]. intros ->. eapply sec_shared. exact Hs. }
  destruct o as [k|k]; unfold call_ok; cbn [lazy_code contains_code].
  - unfold mshard in *. cbn [m_key] in *. eexists _, _. split; [reflexivity|]. apply Hend. intros t Ht.
    destruct (find_spec hash eqb E HE HK t k (proj1 (proj1 Ht))) as (r & Hfk & Hr). unfold find_in. rewrite (sec_rd _ _ _ _ _ _ Hfk). destruct r as [p|].
    + destruct Hr as (e & Hd & Hs). unfold see. rewrite (sec_rd _ _ _ _ _ _ Hd), sec_ret. eexists _, _. split; [reflexivity|]. split; [|assumption].
      exists (pe t). split; [|reflexivity]. cbn. rewrite Hs. auto.
    + destruct (mnew t k (subidx (hash k)) (ret (subidx (hash k)) Excl (CRes true (Some (f k)))) (ret (subidx (hash k)) Excl CThrow) Ht eq_refl Hfk Hr) as (t3 & b & Hsec & Hg3 & Hp3).
      rewrite Hsec. destruct b; rewrite sec_ret; (eexists _, _; split; [reflexivity|]; split; [|assumption]).
      * exists ((k, f k) :: pe t). split; [|assumption]. cbn. rewrite Hr. auto.
      * exists (pe t). split; [|assumption]. cbn. rewrite Hr. auto.
  - unfold mshard in *. cbn [m_key] in *. unfold contains_code. eexists _, _. split; [reflexivity|]. apply Hend. intros t Ht.
    destruct (find_spec hash eqb E HE HK t k (proj1 (proj1 Ht))) as (r & Hfk & Hr). unfold find_in. rewrite (sec_rd _ _ _ _ _ _ Hfk). destruct r as [p|].
    + destruct Hr as (e & Hd & Hs). unfold see. rewrite (sec_rd _ _ _ _ _ _ Hd), sec_ret. eexists _, _. split; [reflexivity|]. split; [|assumption].
      exists (pe t). split; [|reflexivity]. cbn. rewrite Hs. auto.
    + rewrite sec_ret. eexists _, _. split; [reflexivity|]. split; [|assumption]. exists (pe t). split; [|reflexivity]. cbn. rewrite Hr. auto.
Qed.

(** in an order of the calls, an argument is computed at most once, and every answer is right *)
Notation entry := (entry (mop K) (cout V)).
Definition computes (k : K) (e : entry) : Prop := exists k' v, snd (fst e) = MCall k' /\ eqb k k' = true /\ snd e = CRes true v.
Lemma seq_once ts (L : list entry) ts' : seqrun mshard mspec ts L ts' ->
  (forall id o r, In (id, o, r) L -> right_answer f o r) /\
  (forall k i j x y, L !! i = Some x -> L !! j = Some y -> computes k x -> computes k y -> i = j) /\
  (forall k x t, In x L -> computes k x -> ts' !! subidx (hash k) = Some t -> s_find eqb (pe t) k <> None).
Proof.
  induction 1 as [ts|ts L ts' id o r t t' Hrun (IH1 & IH2 & IH3) Ht [(a' & Hst & Hp') [Hg Hg']]].
  - split; [intros id o r []|]. split; [intros k i j x y Hi; discriminate|intros k x t []].
  - assert (Hlt : mshard o < length ts') by (eapply lookup_lt_Some; exact Ht).
    assert (Hfind : forall k (a b : list (K * V)), a ≡ₚ b -> s_find eqb a k = None -> s_find eqb b k = None).
    { intros k a b Hp Hn. rewrite s_find_none in *. intros e He. apply Hn. rewrite Hp. assumption. }
    assert (Hcong : forall k k2 (a : list (K * V)), eqb k k2 = true -> s_find eqb a k2 = s_find eqb a k).
    { intros k k2 a Hk. induction a as [|e a IHa]; [reflexivity|]. cbn. rewrite IHa.
      assert (Hee : eqb k2 (fst e) = eqb k (fst e)); [|rewrite Hee; reflexivity].
      destruct (eqb k (fst e)) eqn:E1; [eapply (ko_trans _ _ HK); [rewrite (ko_sym _ _ HK); exact Hk|exact E1]|].
      destruct (eqb k2 (fst e)) eqn:E2; [|reflexivity]. rewrite (ko_trans _ _ HK _ _ _ Hk E2) in E1. discriminate. }
    assert (Hsub : forall k k2, eqb k k2 = true -> subidx (hash k) = subidx (hash k2)) by (intros k k2 Hk; rewrite (ko_hash _ _ HK _ _ Hk); reflexivity).
    (* the new entry computes k only if k was not computed *)
    assert (Hnew : forall k, computes k (id, o, r) -> s_find eqb (pe t) k = None /\ mshard o = subidx (hash k)).
    { intros k (k' & v & Ho & Hk & Hr). cbn in Ho, Hr. subst o r. cbn in Hst. unfold mshard in *. cbn [m_key] in *. rewrite <- (Hsub _ _ Hk). split; [|reflexivity].
      rewrite <- (Hcong k k' (pe t) Hk). destruct (s_find eqb (pe t) k') as [e|]; [destruct Hst; discriminate|reflexivity]. }
    split; [|split].
    + intros id' o' r' Hin. apply in_app_or in Hin. destruct Hin as [Hin|[[= <- <- <-]|[]]]; [eauto|].
      assert (Hfd : forall k e, s_find eqb (pe t) k = Some e -> snd e = f k).
      { intros k e He. apply s_find_some in He. destruct He as [Hin Hk]. destruct Hg as [_ Hg]. rewrite (Hg e Hin). symmetry. apply Hf. assumption. }
      destruct o as [k|k]; cbn in Hst |- *; destruct (s_find eqb (pe t) k) as [e|] eqn:He.
      * destruct Hst as [-> _]. left. rewrite (Hfd _ _ He). eauto.
      * destruct Hst as [[-> _]|[-> _]]; eauto.
      * destruct Hst as [-> _]. left. cbn. rewrite (Hfd _ _ He). reflexivity.
      * destruct Hst as [-> _]. auto.
    + intros k i j x y Hi Hj Hx Hy.
      assert (Hcase : forall i x, (L ++ [(id, o, r)]) !! i = Some x -> (L !! i = Some x /\ In x L) \/ (i = length L /\ x = (id, o, r))).
      { clear. intros i x Hi. destruct (decide (i < length L)).
        - left. rewrite lookup_app_l in Hi by assumption. split; [assumption|]. apply elem_of_list_In. eapply elem_of_list_lookup_2. eassumption.
        - right. rewrite lookup_app_r in Hi by lia. destruct (i - length L) as [|z] eqn:Hz; [|destruct z; discriminate]. cbn in Hi. injection Hi as <-. split; [lia|reflexivity]. }
      assert (Hno : forall z, In z L -> computes k z -> computes k (id, o, r) -> False).
      { intros z Hz Hcz Hn. destruct (Hnew k Hn) as [Hs Hsh]. rewrite Hsh in Ht. exact (IH3 k z t Hz Hcz Ht Hs). }
      destruct (Hcase _ _ Hi) as [[Hi' Hix]|[-> ->]], (Hcase _ _ Hj) as [[Hj' Hjy]|[-> ->]]; [eauto| | |reflexivity]; exfalso; eauto.
    + intros k x t0 Hx Hcx Ht0.
      assert (Hkeep : s_find eqb (pe t) k <> None -> s_find eqb (pe t') k <> None).
      { intros Hn Hno. apply Hn. assert (Ha : s_find eqb a' k = None) by (eapply Hfind; [exact Hp'|exact Hno]).
        unfold mstep in Hst. destruct o as [k1|k1]; cbn [m_key] in Hst; destruct (s_find eqb (pe t) k1).
        - destruct Hst as [_ ->]. assumption.
        - destruct Hst as [[_ ->]|[_ ->]]; [|assumption]. cbn in Ha. destruct (eqb k k1); [discriminate|assumption].
        - destruct Hst as [_ ->]. assumption.
        - destruct Hst as [_ ->]. assumption. }
      rewrite lookup_ins in Ht0 by assumption. apply in_app_or in Hx. destruct (decide (mshard o = subidx (hash k))) as [Heq|Hne].
      * injection Ht0 as <-. destruct Hx as [Hx|[<-|[]]].
        -- apply Hkeep. rewrite Heq in Ht. eapply IH3; eassumption.
        -- destruct Hcx as (k' & v & Ho & Hk & Hr). cbn in Ho, Hr. subst o r. cbn in Hst. rewrite <- (Hcong k k' (pe t') Hk). intros Hno.
           destruct (s_find eqb (pe t) k') as [e|]; [destruct Hst; discriminate|]. destruct Hst as [[_ ->]|[? _]]; [|discriminate].
           assert (Ha : s_find eqb ((k', f k') :: pe t) k' = None) by (eapply Hfind; [exact Hp'|exact Hno]). cbn in Ha. rewrite (ko_refl _ _ HK) in Ha. discriminate.
      * destruct Hx as [Hx|[<-|[]]]; [eauto|]. destruct (Hnew k Hcx) as [_ H]. contradiction.
Qed.
End Memo.
