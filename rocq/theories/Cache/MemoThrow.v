(** mt_memoize and memoize (include/gtl/memoize.hpp:74-154) of a function that may throw, called by any number of
    threads.  As Memo, with one more result: [CRes true None] is the exception thrown by the function itself. *)
From stdpp Require Import list.
From Coq Require Import Arith NArith ZArith Lia.
From Verif.Common Require Import Res Word.
From Verif.Swiss Require Import Group GroupSpec Model Probe Inv TableInv Resize Ops MapSpec History Reserve.
From Verif.Par Require Import Seq SeqProof PropsSeq Conc ConcProof ConcSafe ConcMap ConcMapProof.
From Verif.Swiss Require Import Failing FailingProof.
From Verif.Cache Require Import Memo.
Local Open Scope nat_scope.
Local Open Scope res_scope.

(** ** What a user sees *)
Section Spec.
Context {K V : Type} (eqb : K -> K -> bool).
(** a function given by its recursion: it returns, throws, or asks for the value at another argument and goes on; the
    answer [None] is the exception of the inner call, which the function may catch *)
Inductive tbody (K V : Type) := TRet (v : V) | TThrow | TAsk (k : K) (c : option V -> tbody K V).
(** the outcome of a body, when the questions are answered by f; [None]: it throws *)
Fixpoint tvalue (f : K -> option V) (b : tbody K V) : option V :=
  match b with TRet _ _ v => Some v | TThrow _ _ => None | TAsk _ _ k c => tvalue f (c (f k)) end.
Fixpoint tasks_below (f : K -> option V) (rank : K -> nat) (n : nat) (b : tbody K V) : Prop :=
  match b with TAsk _ _ k c => rank k < n /\ tasks_below f rank n (c (f k)) | _ => True end.
Record tdefines (def : K -> tbody K V) (rank : K -> nat) (f : K -> option V) : Prop := {
  td_value : forall k, f k = tvalue f (def k);
  td_rank : forall k, tasks_below f rank (rank k) (def k);
  td_eqb : forall a b, eqb a b = true -> f a = f b
}.
(** what a call may answer: the value or the exception of f, or std::bad_alloc; contains never answers for an
    argument where f throws *)
Definition t_answer (f : K -> option V) (o : Memo.mop K) (r : cout V) : Prop :=
  match o with
  | MCall k => r = CThrow \/ match f k with Some v => exists b, r = CRes b (Some v) | None => r = CRes true None end
  | MContains k => r = CRes false None \/ exists v, f k = Some v /\ r = CRes false (Some v)
  end.
End Spec.
Arguments TRet {K V}.  Arguments TThrow {K V}.  Arguments TAsk {K V}.

Lemma sum_insert {A} (g : A -> nat) (l : list A) i x y : l !! i = Some x -> list_sum (map g (<[i := y]> l)) + g x = list_sum (map g l) + g y.
Proof.
  revert i. induction l as [|a l IH]; intros [|i] H; try discriminate; cbn in *; [injection H as ->; lia|]. rewrite <- !Nat.add_assoc. f_equal. exact (IH i H).
Qed.

Section MemoThrow.
Context {K V : Type} (hash : K -> N) (eqb : K -> K -> bool) (E : env) (lg : nat) (dc : disc).
Notation table := (table K V).
Notation cmd := (cmd table (cout V)).
Notation subidx := (Seq.subidx lg).
Notation mop := (Memo.mop K).

(** ** the mode for functions that are not recursive (102-118): lazy_emplace_l; f runs under the exclusive lock, after
    prepare_insert.  If it throws, the exception leaves lazy_emplace_l (phmap.hpp:3944-3957) and the guard unlocks. *)
Definition lazy_throw_code (f : K -> option V) (o : mop) : cmd :=
  match o with
  | MCall k =>
      let m := subidx (hash k) in
      CLock m Excl (find_in hash eqb E m k (fun r =>
        match r with
        | Some p => see m p (fun e => ret m Excl (CRes false (Some (snd e))))
        | None =>
            match f k with
            | Some v => new_elt hash E m k v (ret m Excl (CRes true (Some v))) (ret m Excl CThrow)
            | None => wr m (fun t => prepare_insert hash E t (hash k)) (fun _ => ret m Excl (CRes true None)) (ret m Excl CThrow)
            end
        end))
  | MContains k => contains_code hash eqb E lg dc k
  end.

(** ** the other mode (119-130): if_contains, f outside the lock, emplace if f returned *)
Fixpoint run_tbody (call : K -> (option V -> cmd) -> cmd) (b : tbody K V) (cont : option V -> cmd) : cmd :=
  match b with
  | TRet v => cont (Some v)
  | TThrow => cont None
  | TAsk k c => call k (fun v => run_tbody call (c v) cont)
  end.
Fixpoint memo_throw_call (def : K -> tbody K V) (n : nat) (k : K) (cont : option V -> cmd) {struct n} : cmd :=
  let m := subidx (hash k) in
  CLock m (smode dc) (find_in hash eqb E m k (fun r =>
    match r with
    | Some p => see m p (fun e => CUnlock m (smode dc) (cont (Some (snd e))))
    | None => CUnlock m (smode dc)
        match n with
        | O => CFail
        | S n' => run_tbody (memo_throw_call def n') (def k) (fun r =>
            match r with
            | None => cont None
            | Some v =>
              CLock m Excl (find_in hash eqb E m k (fun r2 =>
                match r2 with
                | Some _ => CUnlock m Excl (cont (Some v))
                | None => new_elt hash E m k v (CUnlock m Excl (cont (Some v))) (CUnlock m Excl (CDone CThrow))
                end))
            end)
        end
    end)).
Definition memo_throw_code (def : K -> tbody K V) (rank : K -> nat) (o : mop) : cmd :=
  match o with
  | MCall k => memo_throw_call def (S (rank k)) k (fun r => CDone (match r with Some v => CRes false (Some v) | None => CRes true None end))
  | MContains k => contains_code hash eqb E lg dc k
  end.

(** ** proofs *)
Context (HE : env_ok E) (HK : KeyOK hash eqb) (f : K -> option V) (Hf : forall a b, eqb a b = true -> f a = f b).
Set Default Proof Using "HE HK Hf".

(** *** the recursive mode *)
Definition tgood (m : nat) (t : table) : Prop := sgood hash eqb E lg m t /\ forall e, In e (pe t) -> f (fst e) = Some (snd e).
Lemma tfound t k e : (forall e, In e (pe t) -> f (fst e) = Some (snd e)) -> s_find eqb (pe t) k = Some e -> f k = Some (snd e).
Proof. intros H Hs. apply s_find_some in Hs. destruct Hs as [Hin Hk]. rewrite <- (H e Hin). apply Hf. assumption. Qed.
Lemma tnew t k v m fin thr : tgood m t -> f k = Some v -> subidx (hash k) = m -> find_key hash eqb E t k = Ok None -> s_find eqb (pe t) k = None ->
  exists t' b, sec m Excl (new_elt hash E m k v fin thr) t = sec m Excl (if b : bool then fin else thr) t' /\ tgood m t' /\
    pe t' ≡ₚ (if b then (k, v) :: pe t else pe t).
Proof.
  intros [Hg Hv] Hfv Hm Hfk Hs. destruct (new_spec hash eqb E HE HK t m k v fin thr (proj1 Hg) Hfk Hs) as (t' & b & Hsec & Hg' & Hp').
  exists t', b. split; [assumption|]. split; [|assumption]. split; [split; [assumption|]|].
  - destruct b; [eapply (keys_new hash eqb E lg); eassumption|eapply (keys_same hash eqb E lg); eassumption].
  - intros e He. rewrite Hp' in He. destruct b; [destruct He as [<-|He]; [assumption|]|]; auto.
Qed.
Notation n := (num_tables lg).
Notation safe := (@safe table (cout V) n tgood).
Lemma tcontains_safe (q : cout V -> Prop) k : q (CRes false None) -> (forall v, f k = Some v -> q (CRes false (Some v))) -> safe q (contains_code hash eqb E lg dc k).
Proof.
  intros H1 H2. apply safe_lock; [apply subidx_lt|]. intros t Ht. destruct (find_spec hash eqb E HE HK t k (proj1 (proj1 Ht))) as (r & Hfk & Hr).
  unfold find_in. rewrite (sec_rd _ _ _ _ _ _ Hfk). destruct r as [p|].
  - destruct Hr as (e & Hd & Hs). unfold see. rewrite (sec_rd _ _ _ _ _ _ Hd), sec_ret. eexists _, _. split; [reflexivity|]. split; [assumption|].
    constructor. apply H2. exact (tfound _ _ _ (proj2 Ht) Hs).
  - rewrite sec_ret. eexists _, _. split; [reflexivity|]. split; [assumption|]. constructor. assumption.
Qed.
Lemma memo_throw_safe def rank (Hdef : tdefines eqb def rank f) (q : cout V -> Prop) (Hq : q CThrow) :
  forall d k cont, rank k < d -> safe q (cont (f k)) -> safe q (memo_throw_call def d k cont).
Proof.
  induction d as [|d IH]; intros k cont Hr Hc; [lia|]. cbn [memo_throw_call]. apply safe_lock; [apply subidx_lt|]. intros t Ht.
  destruct (find_spec hash eqb E HE HK t k (proj1 (proj1 Ht))) as (r & Hfk & Hrr). unfold find_in at 1. rewrite (sec_rd _ _ _ _ _ _ Hfk). destruct r as [p|].
  - destruct Hrr as (e & Hd & Hs). unfold see. rewrite (sec_rd _ _ _ _ _ _ Hd), (sec_unlock). eexists _, _. split; [reflexivity|]. split; [assumption|].
    rewrite <- (tfound _ _ _ (proj2 Ht) Hs). assumption.
  - rewrite sec_unlock. eexists _, _. split; [reflexivity|]. split; [assumption|].
    assert (Hrun : forall b cc, tasks_below f rank d b -> safe q (cc (tvalue f b)) -> safe q (run_tbody (memo_throw_call def d) b cc)).
    { induction b as [v| |k2 c IHb]; intros cc Ha Hv; [exact Hv|exact Hv|]. cbn [run_tbody tasks_below tvalue] in *. destruct Ha as [Ha1 Ha2]. apply IH; [assumption|]. apply IHb; assumption. }
    assert (Hmono : forall b a a', a <= a' -> tasks_below f rank a b -> tasks_below f rank a' b).
    { clear. induction b as [v| |k2 c IHb]; intros a a' Hle Ha; [exact I|exact I|]. cbn in *. destruct Ha as [Ha1 Ha2]. split; [lia|eauto]. }
    apply Hrun; [apply (Hmono _ (rank k)); [lia|apply (td_rank _ _ _ _ Hdef)]|]. rewrite <- (td_value _ _ _ _ Hdef k).
    destruct (f k) as [v|] eqn:Hfv; [|assumption].
    apply safe_lock; [apply subidx_lt|]. intros t2 Ht2.
    destruct (find_spec hash eqb E HE HK t2 k (proj1 (proj1 Ht2))) as (r2 & Hfk2 & Hrr2). unfold find_in. rewrite (sec_rd _ _ _ _ _ _ Hfk2). destruct r2 as [p2|].
    + rewrite sec_unlock. eexists _, _. split; [reflexivity|]. split; assumption.
    + destruct (tnew t2 k v (subidx (hash k)) (CUnlock (subidx (hash k)) Excl (cont (Some v))) (CUnlock (subidx (hash k)) Excl (CDone CThrow)) Ht2 Hfv eq_refl Hfk2 Hrr2) as (t3 & b & Hsec & Hg3 & _).
      rewrite Hsec. destruct b; rewrite sec_unlock; (eexists _, _; split; [reflexivity|]; split; [assumption|]); [assumption|constructor; assumption].
Qed.
Lemma memo_throw_code_safe def rank (Hdef : tdefines eqb def rank f) o : safe (t_answer f o) (memo_throw_code def rank o).
Proof.
  destruct o as [k|k]; cbn [memo_throw_code t_answer].
  - apply (memo_throw_safe def rank Hdef); [left; reflexivity|lia|]. constructor. right. destruct (f k); eauto.
  - apply tcontains_safe; cbn; eauto.
Qed.

(** *** the mode for functions that are not recursive: size() grows with every exception, see Failing *)
Definition lgood (m : nat) (t : table) : Prop :=
  pgood hash eqb E t /\ xgood E t /\ (forall e, In e (pe t) -> subidx (hash (fst e)) = m) /\ (forall e, In e (pe t) -> f (fst e) = Some (snd e)).
Lemma pfind_spec (t : table) k : pgood hash eqb E t -> exists r, find_key hash eqb E t k = Ok r /\
  match r with None => s_find eqb (pe t) k = None /\ absent eqb t k | Some p => exists e, deref t p = Ok e /\ s_find eqb (pe t) k = Some e end.
Proof.
  intros Hg. pose proof (pgood_dist hash eqb E t Hg) as Hd. destruct (present_or_absent eqb t k) as [(i & e & Hi & Hk)|Ha].
  - exists (Some i). split; [eapply (pfind_present hash eqb E HE HK); eassumption|]. exists e. unfold deref. rewrite (load_some _ _ _ Hi). split; [reflexivity|].
    apply (s_find_in hash eqb HK); [exact Hd| |assumption]. apply elems_in. eauto.
  - exists None. split; [apply (pfind_absent hash eqb E HE HK); assumption|]. split; [|assumption]. apply s_find_none. exact Ha.
Qed.
Lemma pnew_spec (t : table) m k v fin thr : pgood hash eqb E t -> xgood E t -> find_key hash eqb E t k = Ok None -> absent eqb t k ->
  exists t' b, sec m Excl (new_elt hash E m k v fin thr) t = sec m Excl (if b : bool then fin else thr) t' /\
    pgood hash eqb E t' /\ xgood E t' /\ pe t' ≡ₚ (if b then (k, v) :: pe t else pe t) /\ t_size t' = (if b then S (t_size t) else t_size t).
Proof.
  intros Hg Hx Hfk Ha. destruct (pemplace hash eqb E HE HK t k v Hg Ha (xgood_size E t Hx)) as [Hb|(t' & p & He & Hp' & Hsl & Hs' & Hpm & Hx')].
  - unfold emplace in Hb. rewrite Hfk in Hb. cbn [rbind] in Hb. unfold new_elt.
    destruct (prepare_insert hash E t (hash k)) as [[t1 p]| | | |] eqn:Hpi; cbn [rbind] in Hb; try discriminate.
    + exfalso. unfold finish_insert in Hb. destruct (construct (t_slots t1) p (k, v)) as [sl| | | |] eqn:Hc; cbn [rbind] in Hb; try discriminate.
      * destruct (set_ctrl E (t_ctrl t1) (t_cap t1) p (H2 (hash (fst (k, v))))) as [ct| | | |] eqn:Hsc; cbn [rbind] in Hb; try discriminate.
        unfold set_ctrl, store in Hsc. destruct (p <? t_cap t1); [|discriminate]. destruct (p <? length (t_ctrl t1)); cbn in Hsc; [|discriminate].
        match type of Hsc with (if ?b then _ else _) = _ => destruct b; discriminate end.
      * unfold construct, load, of_option, store in Hc. destruct (t_slots t1 !! p) as [[x|]|]; cbn in Hc; try discriminate.
        all: try match type of Hc with (if ?b then _ else _) = _ => destruct b; discriminate end.
    + rewrite (sec_wr_throw _ _ _ _ _ Hpi). exists t, false. split; [reflexivity|]. split; [assumption|]. split; [assumption|]. split; reflexivity.
  - unfold emplace in He. rewrite Hfk in He. cbn [rbind] in He. unfold new_elt.
    destruct (prepare_insert hash E t (hash k)) as [[t1 q]| | | |] eqn:Hpi; cbn [rbind] in He; try discriminate.
    rewrite (sec_wr _ _ _ _ _ _ _ Hpi). unfold finish_insert in He. destruct (construct (t_slots t1) q (k, v)) as [sl| | | |] eqn:Hc; cbn [rbind] in He; try discriminate.
    erewrite sec_wr by (unfold void, construct_at; rewrite Hc; reflexivity).
    destruct (set_ctrl E (t_ctrl t1) (t_cap t1) q (H2 (hash (fst (k, v))))) as [ct| | | |] eqn:Hsc; cbn [rbind] in He; try discriminate.
    erewrite sec_wr by (unfold void, publish_at; cbn [t_ctrl t_cap fst] in *; rewrite Hsc; reflexivity).
    cbn [t_ctrl t_slots t_size t_cap t_growth]. injection He as He ->. rewrite He. exists t', true. split; [reflexivity|]. split; [right; assumption|]. split; [auto|]. split; [exact Hpm|assumption].
Qed.
Lemma pthrow_spec (t : table) m k fin thr : pgood hash eqb E t -> xgood E t -> absent eqb t k ->
  exists t' b, sec m Excl (wr m (fun t => prepare_insert hash E t (hash k)) (fun _ => fin) thr) t = sec m Excl (if b : bool then fin else thr) t' /\
    pgood hash eqb E t' /\ xgood E t' /\ pe t' ≡ₚ pe t /\ t_size t' = (if b then S (t_size t) else t_size t).
Proof.
  intros Hg Hx Ha. destruct (pprepare hash eqb E HE HK t k Hg Ha (xgood_size E t Hx)) as [Hb|(t1 & p & c & Hpr & Hp1 & Hs1 & Hpm & Hlt & Hff & Hc & Hor & Hpc & Hxt)].
  - rewrite (sec_wr_throw _ _ _ _ _ Hb). exists t, false. repeat (split; [first [assumption|reflexivity]|]). reflexivity.
  - rewrite (sec_wr _ _ _ _ _ _ _ Hpr). destruct (pfail hash eqb E HE HK t1 p c Hp1 Hc Hor Hpc) as [Hpf Hxf].
    eexists _, true. split; [reflexivity|]. split; [right; exact Hpf|]. split; [right; apply Hxf; exact (xgood_step hash eqb E t t1 Hx Hp1 Hxt)|].
    split; [exact Hpm|]. cbn [wth t_size]. lia.
Qed.
(** one call on the cache *)
Definition tstep (a : list (K * V)) (o : mop) (r : cout V) (a' : list (K * V)) : Prop :=
  match o, s_find eqb a (m_key o) with
  | MCall k, Some e => r = CRes false (Some (snd e)) /\ a' = a
  | MCall k, None =>
      (r = CThrow /\ a' = a) \/
      match f k with Some v => r = CRes true (Some v) /\ a' = (k, v) :: a | None => r = CRes true None /\ a' = a end
  | MContains k, e => r = CRes false (option_map snd e) /\ a' = a
  end.
Definition threw (r : cout V) : nat := match r with CRes true None => 1 | _ => 0 end.
Definition tspec (o : mop) (t : table) (r : cout V) (t' : table) : Prop :=
  (exists a', tstep (pe t) o r a' /\ pe t' ≡ₚ a') /\ t_size t' + length (pe t) = t_size t + length (pe t') + threw r /\ lgood (mshard hash lg o) t /\ lgood (mshard hash lg o) t'.
Notation mshard := (mshard hash lg).
Lemma lazy_throw_ok o : call_ok (lazy_throw_code f) mshard tspec lgood o.
Proof.
  assert (Hend : forall d c, (forall t, lgood (mshard o) t -> exists t' r, sec (mshard o) d c t = Some (t', CDone r) /\ (exists a', tstep (pe t) o r a' /\ pe t' ≡ₚ a') /\
      t_size t' + length (pe t) = t_size t + length (pe t') + threw r /\ lgood (mshard o) t') -> section_ok mshard tspec lgood o d c).
  { intros d c H. constructor. intros t Ht. destruct (H t Ht) as (t' & r & Hs & Hsp & Hsz & Hg). exists t', (CDone r). split; [assumption|].
    left. exists r. split; [reflexivity|]. split; [split; [assumption|split; [assumption|split; assumption]]|]. split; [assumption|]. intros ->. eapply sec_shared. exact Hs. }
  destruct o as [k|k]; unfold call_ok; cbn [lazy_throw_code contains_code].
  - unfold Memo.mshard in *. cbn [m_key] in *. eexists _, _. split; [reflexivity|]. apply Hend. intros t Ht. destruct Ht as (Hg & Hx & Hk & Hv).
    destruct (pfind_spec t k Hg) as (r & Hfk & Hr). unfold find_in. rewrite (sec_rd _ _ _ _ _ _ Hfk). destruct r as [p|].
    + destruct Hr as (e & Hd & Hs). unfold see. rewrite (sec_rd _ _ _ _ _ _ Hd), sec_ret. eexists _, _. split; [reflexivity|]. split; [|split; [cbn; lia|repeat split; assumption]].
      exists (pe t). split; [|reflexivity]. cbn. rewrite Hs. auto.
    + destruct Hr as [Hr Ha]. destruct (f k) as [v|] eqn:Hfv.
      * destruct (pnew_spec t (subidx (hash k)) k v (ret (subidx (hash k)) Excl (CRes true (Some v))) (ret (subidx (hash k)) Excl CThrow) Hg Hx Hfk Ha) as (t3 & b & Hsec & Hg3 & Hx3 & Hp3 & Hs3).
        rewrite Hsec. assert (Hl3 : lgood (subidx (hash k)) t3).
        { split; [assumption|]. split; [assumption|]. split; intros e He; rewrite Hp3 in He; (destruct b; [destruct He as [<-|He]|]); auto. }
        destruct b; rewrite sec_ret; (eexists _, _; split; [reflexivity|]; split; [|split; [|assumption]]).
        -- exists ((k, v) :: pe t). split; [|assumption]. cbn. rewrite Hr, Hfv. auto.
        -- rewrite (Permutation_length Hp3). cbn. lia.
        -- exists (pe t). split; [|assumption]. cbn. rewrite Hr. auto.
        -- rewrite (Permutation_length Hp3). cbn. lia.
      * destruct (pthrow_spec t (subidx (hash k)) k (ret (subidx (hash k)) Excl (CRes true None)) (ret (subidx (hash k)) Excl CThrow) Hg Hx Ha) as (t3 & b & Hsec & Hg3 & Hx3 & Hp3 & Hs3).
        rewrite Hsec. assert (Hl3 : lgood (subidx (hash k)) t3).
        { split; [assumption|]. split; [assumption|]. split; intros e He; rewrite Hp3 in He; auto. }
        destruct b; rewrite sec_ret; (eexists _, _; split; [reflexivity|]; split; [|split; [|assumption]]).
        -- exists (pe t). split; [|assumption]. cbn. rewrite Hr, Hfv. auto.
        -- rewrite (Permutation_length Hp3). cbn. lia.
        -- exists (pe t). split; [|assumption]. cbn. rewrite Hr. auto.
        -- rewrite (Permutation_length Hp3). cbn. lia.
  - unfold Memo.mshard in *. cbn [m_key] in *. unfold contains_code. eexists _, _. split; [reflexivity|]. apply Hend. intros t Ht. destruct Ht as (Hg & Hx & Hk & Hv).
    destruct (pfind_spec t k Hg) as (r & Hfk & Hr). unfold find_in. rewrite (sec_rd _ _ _ _ _ _ Hfk). destruct r as [p|].
    + destruct Hr as (e & Hd & Hs). unfold see. rewrite (sec_rd _ _ _ _ _ _ Hd), sec_ret. eexists _, _. split; [reflexivity|]. split; [|split; [cbn; lia|repeat split; assumption]].
      exists (pe t). split; [|reflexivity]. cbn. rewrite Hs. auto.
    + destruct Hr as [Hr _]. rewrite sec_ret. eexists _, _. split; [reflexivity|]. split; [|split; [cbn; lia|repeat split; assumption]]. exists (pe t). split; [|reflexivity]. cbn. rewrite Hr. auto.
Qed.

(** in an order of the calls, an argument is evaluated successfully at most once, and every answer is right *)
Notation entry := (entry mop (cout V)).
Definition tcomputes (k : K) (e : entry) : Prop := exists k' v, snd (fst e) = MCall k' /\ eqb k k' = true /\ snd e = CRes true (Some v).
Lemma tseq_once ts (L : list entry) ts' : seqrun mshard tspec ts L ts' ->
  (forall id o r, In (id, o, r) L -> t_answer f o r) /\
  (forall k i j x y, L !! i = Some x -> L !! j = Some y -> tcomputes k x -> tcomputes k y -> i = j) /\
  (forall k x t, In x L -> tcomputes k x -> ts' !! subidx (hash k) = Some t -> s_find eqb (pe t) k <> None).
Proof.
  induction 1 as [ts|ts L ts' id o r t t' Hrun (IH1 & IH2 & IH3) Ht [(a' & Hst & Hp') [_ [Hg Hg']]]].
  - split; [intros id o r []|]. split; [intros k i j x y Hi; discriminate|intros k x t []].
  - assert (Hlt : mshard o < length ts') by (eapply lookup_lt_Some; exact Ht).
    assert (Hfind : forall k (a b : list (K * V)), a ≡ₚ b -> s_find eqb a k = None -> s_find eqb b k = None).
    { intros k a b Hp Hn. rewrite s_find_none in *. intros e He. apply Hn. rewrite Hp. assumption. }
    assert (Hcong : forall k k2 (a : list (K * V)), eqb k k2 = true -> s_find eqb a k2 = s_find eqb a k).
    { intros k k2 a Hk. induction a as [|e a IHa]; [reflexivity|]. cbn. rewrite IHa.
      assert (Hee : eqb k2 (fst e) = eqb k (fst e)); [|rewrite Hee; reflexivity].
      destruct (eqb k (fst e)) eqn:E1; [eapply (ko_trans _ _ HK); [rewrite (ko_sym _ _ HK); exact Hk|exact E1]|].
      destruct (eqb k2 (fst e)) eqn:E2; [|reflexivity]. rewrite (ko_trans _ _ HK _ _ _ Hk E2) in E1. discriminate. }
    assert (Hsub : forall k k2, eqb k k2 = true -> subidx (hash k) = subidx (hash k2)) by (intros k k2 Hk; rewrite (ko_hash _ _ HK _ _ Hk); reflexivity).
    assert (Hnew : forall k, tcomputes k (id, o, r) -> s_find eqb (pe t) k = None /\ mshard o = subidx (hash k)).
    { intros k (k' & v & Ho & Hk & Hr). cbn in Ho, Hr. subst o r. cbn in Hst. unfold Memo.mshard in *. cbn [m_key] in *. rewrite <- (Hsub _ _ Hk). split; [|reflexivity].
      rewrite <- (Hcong k k' (pe t) Hk). destruct (s_find eqb (pe t) k') as [e|]; [destruct Hst; discriminate|reflexivity]. }
    split; [|split].
    + intros id' o' r' Hin. apply in_app_or in Hin. destruct Hin as [Hin|[[= <- <- <-]|[]]]; [eauto|].
      assert (Hfd : forall k e, s_find eqb (pe t) k = Some e -> f k = Some (snd e)) by (intros k e He; eapply tfound; [exact (proj2 (proj2 (proj2 Hg)))|exact He]).
      destruct o as [k|k]; cbn in Hst |- *; destruct (s_find eqb (pe t) k) as [e|] eqn:He.
      * destruct Hst as [-> _]. right. rewrite (Hfd _ _ He). eauto.
      * destruct Hst as [[-> _]|Hst]; [auto|]. right. destruct (f k); destruct Hst as [-> _]; eauto.
      * destruct Hst as [-> _]. right. exists (snd e). split; [apply Hfd; assumption|reflexivity].
      * destruct Hst as [-> _]. auto.
    + intros k i j x y Hi Hj Hx Hy.
      assert (Hcase : forall i x, (L ++ [(id, o, r)]) !! i = Some x -> (L !! i = Some x /\ In x L) \/ (i = length L /\ x = (id, o, r))).
      { clear. intros i x Hi. destruct (decide (i < length L)).
        - left. rewrite lookup_app_l in Hi by assumption. split; [assumption|]. apply elem_of_list_In. eapply elem_of_list_lookup_2. eassumption.
        - right. rewrite lookup_app_r in Hi by lia. destruct (i - length L) as [|z] eqn:Hz; [|destruct z; discriminate]. cbn in Hi. injection Hi as <-. split; [lia|reflexivity]. }
      assert (Hno : forall z, In z L -> tcomputes k z -> tcomputes k (id, o, r) -> False).
      { intros z Hz Hcz Hn. destruct (Hnew k Hn) as [Hs Hsh]. rewrite Hsh in Ht. exact (IH3 k z t Hz Hcz Ht Hs). }
      destruct (Hcase _ _ Hi) as [[Hi' Hix]|[-> ->]], (Hcase _ _ Hj) as [[Hj' Hjy]|[-> ->]]; [eauto| | |reflexivity]; exfalso; eauto.
    + intros k x t0 Hx Hcx Ht0.
      assert (Hkeep : s_find eqb (pe t) k <> None -> s_find eqb (pe t') k <> None).
      { intros Hn Hno. apply Hn. assert (Ha : s_find eqb a' k = None) by (eapply Hfind; [exact Hp'|exact Hno]).
        unfold tstep in Hst. destruct o as [k1|k1]; cbn [m_key] in Hst; destruct (s_find eqb (pe t) k1).
        - destruct Hst as [_ ->]. assumption.
        - destruct Hst as [[_ ->]|Hst]; [assumption|]. destruct (f k1); destruct Hst as [_ ->]; [|assumption]. cbn in Ha. destruct (eqb k k1); [discriminate|assumption].
        - destruct Hst as [_ ->]. assumption.
        - destruct Hst as [_ ->]. assumption. }
      rewrite lookup_ins in Ht0 by assumption. apply in_app_or in Hx. destruct (decide (mshard o = subidx (hash k))) as [Heq|Hne].
      * injection Ht0 as <-. destruct Hx as [Hx|[<-|[]]].
        -- apply Hkeep. rewrite Heq in Ht. eapply IH3; eassumption.
        -- destruct Hcx as (k' & v & Ho & Hk & Hr). cbn in Ho, Hr. subst o r. cbn in Hst. rewrite <- (Hcong k k' (pe t') Hk). intros Hno.
           destruct (s_find eqb (pe t) k') as [e|]; [destruct Hst; discriminate|]. destruct Hst as [[? _]|Hst]; [discriminate|].
           destruct (f k') as [v'|]; destruct Hst as [[= <-] ->].
           assert (Ha : s_find eqb ((k', v) :: pe t) k' = None) by (eapply Hfind; [exact Hp'|exact Hno]). cbn in Ha. rewrite (ko_refl _ _ HK) in Ha. discriminate.
      * destruct Hx as [Hx|[<-|[]]]; [eauto|]. destruct (Hnew k Hcx) as [_ H]. contradiction.
Qed.
(** size() is the number of cached values and of exceptions *)
Definition p_total (ts : list table) : nat := list_sum (map t_size ts).
Definition p_cached (ts : list table) : nat := length (flat_map pe ts).
Definition p_threw (L : list entry) : nat := list_sum (map (fun e => threw (snd e)) L).
Lemma cached_sum ts : p_cached ts = list_sum (map (fun t => length (pe t)) ts).
Proof using. unfold p_cached. induction ts as [|t ts IH]; [reflexivity|]. cbn. rewrite app_length, IH. reflexivity. Qed.
Lemma tseq_size ts (L : list entry) ts' : seqrun mshard tspec ts L ts' ->
  p_total ts' + p_cached ts = p_total ts + p_cached ts' + p_threw L.
Proof using.
  induction 1 as [ts|ts L ts' id o r t t' Hrun IH Ht [_ [Hsz _]]]; [unfold p_threw; cbn; lia|].
  assert (Hthr : p_threw (L ++ [(id, o, r)]) = p_threw L + threw r) by (unfold p_threw; rewrite map_app, list_sum_app; cbn; rewrite Nat.add_0_r; reflexivity).
  rewrite Hthr. rewrite !cached_sum in *. unfold p_total in *.
  pose proof (sum_insert t_size ts' _ t t' Ht). pose proof (sum_insert (fun t => length (pe t)) ts' _ t t' Ht) as H2. cbv beta in H2. lia.
Qed.
End MemoThrow.

(** ** the tables before the threads start: any calls of reserve *)
Section Setup.
Context {K V : Type} (hash : K -> N) (eqb : K -> K -> bool) (E : env) (lg : nat).
Context (HE : env_ok E) (HK : KeyOK hash eqb) (Hlg : lg <= 12).
Set Default Proof Using "HE HK Hlg".
Notation table := (table K V).
Definition eready (t : table) : Prop := pgood hash eqb E t /\ xgood E t /\ pe t = [].
Lemma p_rehash_ready nn ps : Forall eready ps -> op_ok (K := K) (V := V) E (ORehash nn) -> (nn <> 0)%N ->
  exists ps' b, p_rehash_loop hash E nn ps = Ok (ps', b) /\ Forall eready ps' /\ length ps' = length ps /\ list_sum (map t_size ps') = list_sum (map t_size ps).
Proof using HE HK.
  intros Hps Ho Hn0. induction Hps as [|t ps (Hg & Hx & He) Hps (ps' & b & Hr & HF & Hlen & Hsum)]; cbn [p_rehash_loop].
  - exists [], false. repeat split; constructor.
  - destruct (prehash hash eqb E HE HK t nn Hg (xgood_size E t Hx) Hn0 (proj1 (proj2 Ho)) (proj2 (proj2 Ho))) as [Hb|(t' & Ht' & Hg' & Hs' & Hp' & Hx')].
    + rewrite Hb. exists (t :: ps), true. split; [reflexivity|]. split; [constructor; [repeat split; assumption|assumption]|]. split; reflexivity.
    + rewrite Ht', Hr. cbn [rbind]. exists (t' :: ps'), b. split; [reflexivity|]. split; [constructor; [|assumption]|].
      * split; [assumption|]. split; [auto|]. unfold pe in *. rewrite He in Hp'. symmetry in Hp'. apply Permutation_nil in Hp'. exact Hp'.
      * cbn [length map]. split; [congruence|]. change (t_size t' + list_sum (map t_size ps') = t_size t + list_sum (map t_size ps)). congruence.
Qed.
Lemma p_run_ready ns : forall ps ps2 rs, Forall eready ps -> Forall (p_op_ok E lg) (map (OReserve (K := K) (V := V)) ns) ->
  p_run hash eqb E lg ps (map OReserve ns) = Ok (ps2, rs) -> Forall eready ps2 /\ length ps2 = length ps /\ list_sum (map t_size ps2) = list_sum (map t_size ps).
Proof.
  induction ns as [|n ns IH]; intros ps ps2 rs Hps Ho Hrun; cbn in Hrun.
  - injection Hrun as <- _. auto.
  - apply Forall_cons_1 in Ho. destruct Ho as [[Hn Hnw] Ho]. destruct (reserve_part E lg Hlg n Hn) as (q & Hq & Hq0 & Hq1).
    unfold p_reserve in Hrun. rewrite Hq in Hrun. cbn [rbind] in Hrun. unfold p_rehash in Hrun.
    destruct (p_rehash_ready (q / N.of_nat (num_tables lg)) ps Hps) as (ps1 & b & Hr & HF & Hlen & Hsum); [cbn; auto|assumption|].
    rewrite Hr in Hrun. cbn [rbind] in Hrun.
    destruct (p_run hash eqb E lg ps1 (map OReserve ns)) as [[ps3 rs3]| | | |] eqn:Hrun3; cbn [rbind] in Hrun; try discriminate. injection Hrun as <- _.
    destruct (IH ps1 ps3 rs3 HF Ho Hrun3) as (H1 & H2 & H3). split; [assumption|]. split; congruence.
Qed.
Lemma p_empty_ready : Forall eready (p_empty lg).
Proof using.
  unfold p_empty. apply Forall_forall. intros t Ht. apply elem_of_replicate in Ht. destruct Ht as [-> _]. split; [left; reflexivity|]. split; [left; reflexivity|reflexivity].
Qed.
Lemma throw_setup (f : K -> option V) ns ps rs : Forall (p_op_ok E lg) (map (OReserve (K := K) (V := V)) ns) -> p_run hash eqb E lg (p_empty lg) (map OReserve ns) = Ok (ps, rs) ->
  length ps = num_tables lg /\ (forall i t, ps !! i = Some t -> lgood hash eqb E lg f i t) /\ p_total ps = 0 /\ p_cached ps = 0.
Proof.
  intros Ho Hrun. destruct (p_run_ready ns _ _ _ p_empty_ready Ho Hrun) as (H1 & H2 & H3).
  split; [rewrite H2; unfold p_empty; rewrite replicate_length; reflexivity|]. split; [|split].
  - intros i t Hi. rewrite Forall_lookup in H1. destruct (H1 i t Hi) as (Ha & Hb & Hc). split; [assumption|]. split; [assumption|]. rewrite Hc. split; intros e [].
  - unfold p_total. rewrite H3. unfold p_empty. clear. induction (num_tables lg) as [|n IH]; [reflexivity|exact IH].
  - rewrite cached_sum. clear -H1. induction H1 as [|t ps (_ & _ & Hp) _ IH]; [reflexivity|]. cbn [map]. rewrite Hp. exact IH.
Qed.
End Setup.
