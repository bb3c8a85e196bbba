(** The calls of ConcMap are critical sections with the effect of the map operations. *)
From stdpp Require Import list.
From Coq Require Import Arith NArith ZArith Lia.
From Verif.Common Require Import Res Word.
From Verif.Swiss Require Import Group GroupSpec Model Probe Inv TableInv Resize Ops MapSpec History Multi MultiSpec MultiProof.
From Verif.Par Require Import Seq SeqProof Conc ConcProof ConcMap.
Local Open Scope nat_scope.
Local Open Scope res_scope.

Section ConcMapProof.
Context {K V : Type} (hash : K -> N) (eqb : K -> K -> bool) (E : env) (lg : nat) (dc : disc).
Context (HE : env_ok E) (HK : KeyOK hash eqb).
Set Default Proof Using "HE HK".
Notation elt := (K * V)%type.
Notation table := (table K V).
Notation good := (good hash eqb E).
Notation subidx := (subidx lg).
Notation cmd := (cmd table (cout V)).
Notation code := (code hash eqb E lg dc).
Notation R := (@History.R K V hash eqb E).
Notation s_find := (s_find eqb).

Definition shard (o : cop K V) : nat := subidx (hash (c_key o)).
Definition cstep (m : list elt) (o : cop K V) (r : cout V) (m' : list elt) : Prop :=
  match dc with Mutex => c_step eqb m o r m' | SharedMutex => c_step_weak eqb m o r m' end.
Definition sgood (m : nat) (t : table) : Prop := good t /\ forall e, In e (pe t) -> subidx (hash (fst e)) = m.
Definition step1 (o : cop K V) (t : table) (r : cout V) (t' : table) : Prop :=
  exists a', cstep (pe t) o r a' /\ pe t' ≡ₚ a'.
Definition spec (o : cop K V) (t : table) (r : cout V) (t' : table) : Prop := step1 o t r t' /\ sgood (shard o) t'.

Lemma strong m o r m' : c_step eqb m o r m' -> cstep m o r m'.
Proof using. unfold cstep. destruct dc; [auto|left; assumption]. Qed.

(** ** the steps *)
Lemma find_spec (t : table) k : good t -> exists r, find_key hash eqb E t k = Ok r /\
  match r with None => s_find (pe t) k = None | Some p => exists e, deref t p = Ok e /\ s_find (pe t) k = Some e end.
Proof.
  intros Hg. destruct (exec_ok hash eqb E HE HK t (pe t) (OFind k) (R_pe _ _ _ _ Hg) I) as (t' & r & a' & He & [Hr _] & _).
  cbn [exec] in He. destruct (find_key hash eqb E t k) as [o| | | |]; cbn [rbind] in He; try discriminate.
  exists o. split; [reflexivity|]. destruct o as [p|].
  - destruct (deref t p) as [e| | | |]; cbn [rbind] in He; try discriminate. exists e. split; [reflexivity|]. congruence.
  - congruence.
Qed.
Lemma sec_rd {A} m d (f : table -> res A) k t a : f t = Ok a -> sec m d (rd m f k) t = sec m d (k a) t.
Proof using. intros H. unfold rd. cbn [sec]. rewrite Nat.eqb_refl, H. reflexivity. Qed.
Lemma sec_wr {A} m (f : table -> res (table * A)) k thr t t' a : f t = Ok (t', a) -> sec m Excl (wr m f k thr) t = sec m Excl (k a) t'.
Proof using. intros H. unfold wr. cbn [sec]. rewrite Nat.eqb_refl, H. reflexivity. Qed.
Lemma sec_wr_throw {A} m (f : table -> res (table * A)) k thr t : f t = BadAlloc -> sec m Excl (wr m f k thr) t = sec m Excl thr t.
Proof using. intros H. unfold wr. cbn [sec]. rewrite Nat.eqb_refl, H. reflexivity. Qed.
Lemma sec_ret m d r (t : table) : sec m d (ret m d r) t = Some (t, CDone r).
Proof using. unfold ret. cbn [sec]. rewrite Nat.eqb_refl, bool_decide_eq_true_2 by reflexivity. reflexivity. Qed.

Lemma new_spec (t : table) m k v fin thr : good t -> find_key hash eqb E t k = Ok None -> s_find (pe t) k = None ->
  exists t' b, sec m Excl (new_elt hash E m k v fin thr) t = sec m Excl (if b : bool then fin else thr) t' /\
    good t' /\ pe t' ≡ₚ (if b then (k, v) :: pe t else pe t).
Proof.
  intros Hg Hf Hs.
  destruct (exec_ok hash eqb E HE HK t (pe t) (OEmplace k v) (R_pe _ _ _ _ Hg) I) as (t' & r & a' & He & Hst & [Hg' Hp'] & _).
  cbn [s_step] in Hst. rewrite Hs in Hst. cbn [exec] in He. unfold emplace in He. rewrite Hf in He. cbn [rbind] in He.
  unfold new_elt. destruct (prepare_insert hash E t (hash k)) as [[t1 p]| | | |] eqn:Hpi; cbn [rbind catch] in He; try discriminate.
  - rewrite (sec_wr _ _ _ _ _ _ _ Hpi). unfold finish_insert in He. destruct (construct (t_slots t1) p (k, v)) as [sl| | | |] eqn:Hc; cbn [rbind catch] in He; try discriminate.
    + erewrite sec_wr by (unfold void, construct_at; rewrite Hc; reflexivity).
      destruct (set_ctrl E (t_ctrl t1) (t_cap t1) p (H2 (hash (fst (k, v))))) as [ct| | | |] eqn:Hsc; cbn [rbind catch] in He; try discriminate.
      * erewrite sec_wr by (unfold void, publish_at; cbn [t_ctrl t_cap fst] in *; rewrite Hsc; reflexivity).
        eexists _, true. split; [reflexivity|]. cbn [t_ctrl t_slots t_size t_cap t_growth].
        destruct (deref _ p) as [e| | | |] eqn:Hd; cbn [rbind catch] in He; try discriminate.
        -- injection He as <- <-. split; [assumption|]. destruct Hst as [[_ ->]|[? _]]; [exact Hp'|discriminate].
        -- injection He as <- <-. exfalso. unfold deref, load, of_option in Hd. repeat (let X := fresh in destruct (_ !! _) as [[X|]|]; cbn in Hd; try discriminate).
      * exfalso. unfold set_ctrl, store in Hsc. destruct (p <? t_cap t1); [|discriminate]. destruct (p <? length (t_ctrl t1)); cbn in Hsc; [|discriminate].
        match type of Hsc with (if ?b then _ else _) = _ => destruct b; discriminate end.
    + exfalso. unfold construct, load, of_option, store in Hc. destruct (t_slots t1 !! p) as [[x|]|]; cbn in Hc; try discriminate.
      all: try match type of Hc with (if ?b then _ else _) = _ => destruct b; discriminate end.
  - injection He as <- <-. rewrite (sec_wr_throw _ _ _ _ _ Hpi). exists t, false. split; [reflexivity|]. split; [assumption|reflexivity].
Qed.
Lemma assign_spec (t : table) k v p e : good t -> find_key hash eqb E t k = Ok (Some p) -> deref t p = Ok e -> s_find (pe t) k = Some e ->
  exists t', assign_at t p v = Ok t' /\ good t' /\ pe t' ≡ₚ s_update eqb (pe t) k v.
Proof.
  intros Hg Hf Hd Hs.
  destruct (exec_ok hash eqb E HE HK t (pe t) (OAssign k v) (R_pe _ _ _ _ Hg) I) as (t' & r & a' & He & Hst & [Hg' Hp'] & _).
  cbn [s_step] in Hst. rewrite Hs in Hst. destruct Hst as [-> ->]. cbn [exec] in He. unfold insert_or_assign, emplace in He. rewrite Hf in He. cbn [rbind] in He.
  destruct (assign_at t p v) as [t2| | | |] eqn:Ha; cbn [rbind catch] in He; try discriminate.
  exists t2. split; [reflexivity|]. destruct (deref t2 p) as [e2| | | |]; cbn [rbind catch] in He; try discriminate. injection He as <- _. auto.
Qed.
Lemma erase_spec (t : table) k p e : good t -> find_key hash eqb E t k = Ok (Some p) -> s_find (pe t) k = Some e ->
  exists t' e', erase_at E t p = Ok (e', t') /\ good t' /\ pe t' ≡ₚ s_erase eqb (pe t) k.
Proof.
  intros Hg Hf Hs.
  destruct (exec_ok hash eqb E HE HK t (pe t) (OErase k) (R_pe _ _ _ _ Hg) I) as (t' & r & a' & He & Hst & [Hg' Hp'] & _).
  cbn [s_step] in Hst. destruct Hst as [-> ->]. cbn [exec] in He. unfold erase_key in He. rewrite Hf in He. cbn [rbind] in He.
  destruct (erase_at E t p) as [[e' t2]| | | |] eqn:Ha; cbn [rbind] in He; try discriminate. injection He as <- _. eauto 10.
Qed.

(** keys stay in their submap *)
Lemma keys_new m k (v : V) t t' : sgood m t -> subidx (hash k) = m -> pe t' ≡ₚ (k, v) :: pe t -> forall e, In e (pe t') -> subidx (hash (fst e)) = m.
Proof using. intros [_ H] Hk Hp e He. rewrite Hp in He. destruct He as [<-|He]; [assumption|auto]. Qed.
Lemma keys_same m (t t' : table) : sgood m t -> pe t' ≡ₚ pe t -> forall e, In e (pe t') -> subidx (hash (fst e)) = m.
Proof using. intros [_ H] Hp e He. rewrite Hp in He. auto. Qed.
Lemma keys_update m k (v : V) (t t' : table) : sgood m t -> pe t' ≡ₚ s_update eqb (pe t) k v -> forall e, In e (pe t') -> subidx (hash (fst e)) = m.
Proof using.
  intros [_ H] Hp e He. rewrite Hp in He. unfold s_update in He. apply in_map_iff in He. destruct He as (x & <- & Hx).
  destruct (eqb k (fst x)); cbn; auto.
Qed.
Lemma keys_erase m k (t t' : table) : sgood m t -> pe t' ≡ₚ s_erase eqb (pe t) k -> forall e, In e (pe t') -> subidx (hash (fst e)) = m.
Proof using. intros [_ H] Hp e He. rewrite Hp in He. unfold s_erase in He. apply filter_In in He. destruct He. auto. Qed.

Notation section_ok := (@Conc.section_ok table (cop K V) (cout V) shard spec sgood).

(** a section that ends the call *)
Lemma section_end o d c :
  (forall t, sgood (shard o) t -> exists t' r, sec (shard o) d c t = Some (t', CDone r) /\ step1 o t r t' /\ sgood (shard o) t') ->
  section_ok o d c.
Proof using.
  intros H. constructor. intros t Ht. destruct (H t Ht) as (t' & r & Hs & Hsp & Hg). exists t', (CDone r). split; [assumption|].
  left. exists r. split; [reflexivity|]. split; [split; assumption|]. split; [assumption|]. intros ->. eapply sec_shared. exact Hs.
Qed.

Lemma erase_found_ok o k (call : bool) pr (t : table) p e : shard o = subidx (hash k) -> sgood (shard o) t ->
  (forall m r m', (if call then c_step eqb m (CEraseIf k pr) r m' else pr = (fun _ => true) /\ c_step eqb m (CErase k) r m') -> cstep m o r m') ->
  (call = false -> pr = fun _ => true) ->
  find_key hash eqb E t k = Ok (Some p) -> deref t p = Ok e -> s_find (pe t) k = Some e ->
  exists t' r, sec (shard o) Excl (erase_found E (shard o) p call pr) t = Some (t', CDone r) /\ step1 o t r t' /\ sgood (shard o) t'.
Proof.
  intros Hsh Hg Hst Hpr Hf Hd Hs. unfold erase_found, see. rewrite (sec_rd _ _ _ _ _ _ Hd). destruct (pr e) eqn:Hp.
  - destruct (erase_spec t k p e (proj1 Hg) Hf Hs) as (t' & e' & He & Hg' & Hp').
    erewrite sec_wr by (rewrite He; reflexivity). rewrite sec_ret. eexists _, _. split; [reflexivity|]. split.
    + exists (s_erase eqb (pe t) k). split; [|assumption]. apply Hst. destruct call; cbn; rewrite Hs; [rewrite Hp; auto|]. split; [auto|]. auto.
    + split; [assumption|]. eapply keys_erase; eassumption.
  - rewrite sec_ret. eexists _, _. split; [reflexivity|]. split; [|assumption]. exists (pe t). split; [|reflexivity]. apply Hst.
    destruct call; cbn; rewrite Hs; [rewrite Hp; auto|]. rewrite (Hpr eq_refl) in Hp. discriminate.
Qed.

Lemma erase_code_ok o k (call : bool) pr : shard o = subidx (hash k) -> o = (if call then CEraseIf k pr else CErase k) ->
  (call = false -> pr = fun _ => true) ->
  exists d c, erase_code hash eqb E lg dc k call pr = CLock (shard o) d c /\ section_ok o d c.
Proof.
  intros Hsh Ho Hpr.
  assert (Hst : forall m r m', (if call then c_step eqb m (CEraseIf k pr) r m' else pr = (fun _ => true) /\ c_step eqb m (CErase k) r m') -> cstep m o r m').
  { intros m r m' H. apply strong. subst o. destruct call; [assumption|apply H]. }
  assert (Habs : forall t : table, s_find (pe t) k = None -> cstep (pe t) o (CRes false None) (pe t)).
  { intros t Hs. apply strong. subst o. destruct call; cbn; rewrite Hs; auto. }
  unfold erase_code. rewrite <- Hsh. clear Hsh. unfold cstep in *. destruct dc eqn:Hdc.
  - eexists _, _. split; [reflexivity|]. apply section_end. intros t Ht.
    destruct (find_spec t k (proj1 Ht)) as (r & Hf & Hr). unfold find_in. rewrite (sec_rd _ _ _ _ _ _ Hf). destruct r as [p|].
    + destruct Hr as (e & Hd & Hs). eapply erase_found_ok; try eassumption.
      * subst o. destruct call; reflexivity.
      * unfold cstep. rewrite Hdc. assumption.
    + rewrite sec_ret. eexists _, _. split; [reflexivity|]. split; [|assumption]. exists (pe t). split; [|reflexivity]. unfold cstep. rewrite Hdc. auto.
  - eexists _, _. split; [reflexivity|]. constructor. intros t Ht.
    destruct (find_spec t k (proj1 Ht)) as (r & Hf & Hr). unfold find_in at 1. rewrite (sec_rd _ _ _ _ _ _ Hf). destruct r as [p|].
    + exists t, (CLock (shard o) Excl (find_in hash eqb E (shard o) k (fun r2 =>
              match r2 with None => ret (shard o) Excl (CRes true None) | Some p => erase_found E (shard o) p call pr end))).
      split; [cbn [sec]; rewrite Nat.eqb_refl, bool_decide_eq_true_2 by reflexivity; reflexivity|].
      right. split; [reflexivity|]. eexists _, _. split; [reflexivity|]. apply section_end. intros t2 Ht2.
      destruct (find_spec t2 k (proj1 Ht2)) as (r2 & Hf2 & Hr2). unfold find_in. rewrite (sec_rd _ _ _ _ _ _ Hf2). destruct r2 as [p2|].
      * destruct Hr2 as (e2 & Hd2 & Hs2). eapply erase_found_ok; try eassumption.
        -- subst o. destruct call; reflexivity.
        -- unfold cstep. rewrite Hdc. assumption.
      * rewrite sec_ret. eexists _, _. split; [reflexivity|]. split; [|assumption]. exists (pe t2). split; [|reflexivity].
        unfold cstep. rewrite Hdc. right. subst o. destruct call; auto.
    + rewrite sec_ret. eexists _, _. split; [reflexivity|]. left. eexists. split; [reflexivity|]. split; [|auto]. split; [|assumption].
      exists (pe t). split; [|reflexivity]. unfold cstep. rewrite Hdc. auto.
Qed.

Lemma code_ok o : call_ok code shard spec sgood o.
Proof.
  unfold call_ok. destruct o as [k v|k v|k f v|k|k f|k|k|k p]; cbn [ConcMap.code].
  7:{ apply (erase_code_ok (CErase k) k false); [reflexivity|reflexivity|auto]. }
  7:{ apply (erase_code_ok (CEraseIf k p) k true); [reflexivity|reflexivity|discriminate]. }
  all: match goal with |- exists d c, _ = CLock (shard ?o) d c /\ _ => set (o0 := o) end; cbv zeta; fold (shard o0).
  all: eexists _, _; (split; [reflexivity|]); apply section_end; intros t Ht;
       destruct (find_spec t k (proj1 Ht)) as (r & Hf & Hr); unfold find_in; rewrite (sec_rd _ _ _ _ _ _ Hf); destruct r as [p|].
  (* insert *)
  - destruct Hr as (e & Hd & Hs). rewrite sec_ret. eexists _, _. split; [reflexivity|]. split; [|assumption].
    exists (pe t). split; [|reflexivity]. apply strong. cbn. rewrite Hs. auto.
  - destruct (new_spec t (shard o0) k v (ret (shard o0) Excl (CRes true None)) (ret (shard o0) Excl CThrow) (proj1 Ht) Hf Hr) as (t' & b & Hsec & Hg' & Hp').
    rewrite Hsec. destruct b; rewrite sec_ret; eexists _, _; (split; [reflexivity|]).
    + split; [exists ((k, v) :: pe t); split; [apply strong; cbn; rewrite Hr; auto|assumption]|split; [assumption|eapply keys_new; [exact Ht|reflexivity|exact Hp']]].
    + split; [exists (pe t); split; [apply strong; cbn; rewrite Hr; auto|assumption]|split; [assumption|eapply keys_same; [exact Ht|exact Hp']]].
  (* insert_or_assign *)
  - destruct Hr as (e & Hd & Hs). destruct (assign_spec t k v p e (proj1 Ht) Hf Hd Hs) as (t' & Ha & Hg' & Hp').
    erewrite sec_wr by (unfold void; rewrite Ha; reflexivity). rewrite sec_ret. eexists _, _. split; [reflexivity|]. split.
    + exists (s_update eqb (pe t) k v). split; [|assumption]. apply strong. cbn. rewrite Hs. auto.
    + split; [assumption|eapply keys_update; [exact Ht|exact Hp']].
  - destruct (new_spec t (shard o0) k v (ret (shard o0) Excl (CRes true None)) (ret (shard o0) Excl CThrow) (proj1 Ht) Hf Hr) as (t' & b & Hsec & Hg' & Hp').
    rewrite Hsec. destruct b; rewrite sec_ret; eexists _, _; (split; [reflexivity|]).
    + split; [exists ((k, v) :: pe t); split; [apply strong; cbn; rewrite Hr; auto|assumption]|split; [assumption|eapply keys_new; [exact Ht|reflexivity|exact Hp']]].
    + split; [exists (pe t); split; [apply strong; cbn; rewrite Hr; auto|assumption]|split; [assumption|eapply keys_same; [exact Ht|exact Hp']]].
  (* try_emplace_l *)
  - destruct Hr as (e & Hd & Hs). unfold see. rewrite (sec_rd _ _ _ _ _ _ Hd).
    destruct (assign_spec t k (f (snd e)) p e (proj1 Ht) Hf Hd Hs) as (t' & Ha & Hg' & Hp').
    erewrite sec_wr by (unfold void; rewrite Ha; reflexivity). rewrite sec_ret. eexists _, _. split; [reflexivity|]. split.
    + exists (s_update eqb (pe t) k (f (snd e))). split; [|assumption]. apply strong. cbn. rewrite Hs. auto.
    + split; [assumption|eapply keys_update; [exact Ht|exact Hp']].
  - destruct (new_spec t (shard o0) k v (ret (shard o0) Excl (CRes true None)) (ret (shard o0) Excl CThrow) (proj1 Ht) Hf Hr) as (t' & b & Hsec & Hg' & Hp').
    rewrite Hsec. destruct b; rewrite sec_ret; eexists _, _; (split; [reflexivity|]).
    + split; [exists ((k, v) :: pe t); split; [apply strong; cbn; rewrite Hr; auto|assumption]|split; [assumption|eapply keys_new; [exact Ht|reflexivity|exact Hp']]].
    + split; [exists (pe t); split; [apply strong; cbn; rewrite Hr; auto|assumption]|split; [assumption|eapply keys_same; [exact Ht|exact Hp']]].
  (* if_contains *)
  - destruct Hr as (e & Hd & Hs). unfold see. rewrite (sec_rd _ _ _ _ _ _ Hd). rewrite sec_ret. eexists _, _. split; [reflexivity|]. split; [|assumption].
    exists (pe t). split; [|reflexivity]. apply strong. cbn. rewrite Hs. auto.
  - rewrite sec_ret. eexists _, _. split; [reflexivity|]. split; [|assumption].
    exists (pe t). split; [|reflexivity]. apply strong. cbn. rewrite Hr. auto.
  (* modify_if *)
  - destruct Hr as (e & Hd & Hs). unfold see. rewrite (sec_rd _ _ _ _ _ _ Hd).
    destruct (assign_spec t k (f (snd e)) p e (proj1 Ht) Hf Hd Hs) as (t' & Ha & Hg' & Hp').
    erewrite sec_wr by (unfold void; rewrite Ha; reflexivity). rewrite sec_ret. eexists _, _. split; [reflexivity|]. split.
    + exists (s_update eqb (pe t) k (f (snd e))). split; [|assumption]. apply strong. cbn. rewrite Hs. auto.
    + split; [assumption|eapply keys_update; [exact Ht|exact Hp']].
  - rewrite sec_ret. eexists _, _. split; [reflexivity|]. split; [|assumption].
    exists (pe t). split; [|reflexivity]. apply strong. cbn. rewrite Hr. auto.
  (* contains *)
  - destruct Hr as (e & Hd & Hs). rewrite sec_ret. eexists _, _. split; [reflexivity|]. split; [|assumption].
    exists (pe t). split; [|reflexivity]. apply strong. cbn. rewrite Hs. auto.
  - rewrite sec_ret. eexists _, _. split; [reflexivity|]. split; [|assumption].
    exists (pe t). split; [|reflexivity]. apply strong. cbn. rewrite Hr. auto.
Qed.

(** ** from submaps to one map *)
Lemma frame_c (m a rest a' : list elt) o r : distinct eqb m -> m ≡ₚ a ++ rest ->
  (forall e, In e rest -> eqb (c_key o) (fst e) = false) -> cstep a o r a' ->
  exists m', cstep m o r m' /\ m' ≡ₚ a' ++ rest.
Proof.
  intros Hd Hp Hrest Hst.
  assert (Hf : s_find m (c_key o) = s_find a (c_key o)).
  { rewrite (s_find_perm hash eqb HK _ _ _ Hd Hp), s_find_app. rewrite (proj2 (s_find_none eqb rest _)) by assumption.
    destruct (s_find a (c_key o)); reflexivity. }
  assert (Hup : forall v, s_update eqb m (c_key o) v ≡ₚ s_update eqb a (c_key o) v ++ rest).
  { intros v. rewrite (s_update_perm eqb _ _ (c_key o) v Hp). unfold s_update at 1. rewrite map_app. f_equiv; [reflexivity|].
    change (s_update eqb rest (c_key o) v ≡ₚ rest). rewrite s_update_absent by assumption. reflexivity. }
  assert (Her : s_erase eqb m (c_key o) ≡ₚ s_erase eqb a (c_key o) ++ rest).
  { rewrite (s_erase_perm eqb _ _ (c_key o) Hp). unfold s_erase at 1. rewrite List.filter_app. f_equiv; [reflexivity|].
    change (s_erase eqb rest (c_key o) ≡ₚ rest). rewrite s_erase_absent by assumption. reflexivity. }
  assert (Hstrong : forall r a', c_step eqb a o r a' -> exists m', c_step eqb m o r m' /\ m' ≡ₚ a' ++ rest).
  { clear Hst. intros r0 a0 Hst. unfold c_step in *. destruct o as [k v|k v|k f v|k|k f|k|k|k p]; cbn [c_key] in *; rewrite Hf; destruct (s_find a k) as [e|].
    all: try (destruct (p e)).
    all: repeat match goal with H : _ \/ _ |- _ => destruct H end.
    all: match goal with H : _ /\ _ |- _ => destruct H as [-> ->] end.
    all: first [ exists m; split; [solve [auto]|assumption]
               | exists ((k, v) :: m); split; [solve [auto]|rewrite Hp; reflexivity]
               | eexists (s_update eqb m k _); split; [split; reflexivity|apply Hup]
               | exists (s_erase eqb m k); split; [split; reflexivity|exact Her] ]. }
  unfold cstep in *. destruct dc; [apply Hstrong; assumption|]. destruct Hst as [Hst|Hst].
  - destruct (Hstrong _ _ Hst) as (m' & H1 & H2). exists m'. split; [left; assumption|assumption].
  - exists m. destruct o; try contradiction; destruct Hst as (H1 & -> & ->); (split; [|assumption]); right; (split; [|auto]); cbn [c_key] in Hf; rewrite Hf; assumption.
Qed.
Notation PR := (PR hash eqb E lg).
Lemma seq_to_map ps ps' m (L : list (entry (cop K V) (cout V))) : PR ps m -> seqrun shard spec ps L ps' ->
  exists m', c_run cstep m L m' /\ PR ps' m'.
Proof.
  intros HPR Hrun. induction Hrun as [ps|ps L ps' id o r t t' Hrun IH Ht [(a' & Hst & Hp') [Hg' Hk']]].
  - exists m. split; [constructor|assumption].
  - destruct (IH HPR) as (m1 & Hrun1 & HPR1). pose proof HPR1 as [Hg Hp].
    destruct (pelems_focus ps' _ _ Ht) as (rest & Hr1 & Hr2 & Hr3).
    destruct (frame_c m1 (pe t) rest a' o r) as (m2 & Hst2 & Hm2).
    + eapply PR_distinct; eassumption.
    + rewrite <- Hp. assumption.
    + eapply focus_distinct; [eassumption|eassumption|eapply pg_routed; eassumption|exact Ht|reflexivity|exact Hr3].
    + assumption.
    + exists m2. split; [econstructor; eassumption|]. split.
      * eapply pgood_insert; eassumption.
      * rewrite Hr2, Hp', Hm2. reflexivity.
Qed.
End ConcMapProof.
