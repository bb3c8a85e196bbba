(** Property theorems about concurrent calls on one parallel container (C14, C15, and C16 for single-key calls). *)
From stdpp Require Import list.
From Coq Require Import Arith NArith ZArith Lia.
From Verif.Common Require Import Res Word.
From Verif.Swiss Require Import Group GroupSpec Model Probe Inv TableInv Resize Ops MapSpec History Multi MultiSpec MultiProof MultiHistory PropsTable PropsMulti.
From Verif.Par Require Import Seq SeqSpec SeqProof PropsSeq Conc ConcProof ConcMap ConcMapProof.
Local Open Scope nat_scope.
Local Open Scope res_scope.

Section Setup.
Context {K V : Type} (hash : K -> N) (eqb : K -> K -> bool) (E : env) (lg : nat).
Context (HE : env_ok E) (HK : KeyOK hash eqb) (Hlg : lg <= 12).
Lemma p_run_ok (os : list (op K V)) : forall ps m, PR hash eqb E lg ps m -> Forall (p_op_ok E lg) os ->
  exists ps' rs m', p_run hash eqb E lg ps os = Ok (ps', rs) /\ s_run eqb m os rs m' /\ PR hash eqb E lg ps' m'.
Proof using HE HK Hlg.
  induction os as [|o os IH]; intros ps m HP Ho.
  - exists ps, [], m. split; [reflexivity|]. split; [constructor|assumption].
  - inversion Ho as [|? ? Ha Hb]; subst. destruct (p_exec_ok hash eqb E lg HE HK Hlg ps m o HP Ha) as (ps1 & r & m1 & He & Hs & HP1).
    destruct (IH ps1 m1 HP1 Hb) as (ps2 & rs & m2 & Hr & Hsr & HP2). cbn [p_run]. rewrite He. cbn [rbind]. rewrite Hr. cbn [rbind].
    eexists _, _, _. split; [reflexivity|]. split; [econstructor; eassumption|assumption].
Qed.
Lemma setup (os : list (op K V)) ps rs : Forall (p_op_ok E lg) os -> p_run hash eqb E lg (p_empty lg) os = Ok (ps, rs) ->
  exists m, s_run eqb [] os rs m /\ PR hash eqb E lg ps m.
Proof using HE HK Hlg.
  intros Ho H. destruct (p_run_ok os (p_empty lg) []) as (ps' & rs' & m & H1 & H2 & H3); [apply replicate_PR; reflexivity|assumption|].
  rewrite H in H1. injection H1 as <- <-. eauto.
Qed.
Lemma shard_lt (ps : list (table K V)) m : PR hash eqb E lg ps m -> forall o : cop K V, shard hash lg o < length ps.
Proof using. intros [Hg _] o. rewrite (pg_len _ _ _ _ _ Hg). apply subidx_lt. Qed.
Lemma shards_good (ps : list (table K V)) m : PR hash eqb E lg ps m -> forall i t, ps !! i = Some t -> sgood hash eqb E lg i t.
Proof using.
  intros [Hg _] i t Hi. split; [eapply Forall_lookup_1; [apply (pg_good _ _ _ _ _ Hg)|exact Hi]|].
  intros e He. eapply (pg_routed _ _ _ _ _ Hg); eassumption.
Qed.
Lemma conc_ok dc pref (os : list (op K V)) ps rs progs s tr : Forall (p_op_ok E lg) os -> p_run hash eqb E lg (p_empty lg) os = Ok (ps, rs) ->
  reach (code hash eqb E lg dc) pref (start ps progs) s tr ->
  (exists m0 L m1, s_run eqb [] os rs m0 /\ linearization tr L /\ c_run (cstep eqb dc) m0 L m1 /\
    (idle s -> PR hash eqb E lg (st_shards s) m1)) /\
  (forall i, step (code hash eqb E lg dc) pref s i <> Some UB).
Proof using HE HK Hlg.
  intros Ho Hrun Hreach. destruct (setup os ps rs Ho Hrun) as (m0 & Hs0 & HPR).
  destruct (linearizable (code hash eqb E lg dc) pref (shard hash lg) (spec hash eqb E lg dc) (sgood hash eqb E lg) (code_ok hash eqb E lg dc HE HK)
    ps progs s tr (shard_lt _ _ HPR) (shards_good _ _ HPR) Hreach) as [(L & vs & HL & Hseq & _ & Hid) Hub].
  split; [|assumption]. destruct (seq_to_map hash eqb E lg dc HE HK ps vs m0 L HPR Hseq) as (m1 & Hc & HPR1).
  exists m0, L, m1. split; [assumption|]. split; [assumption|]. split; [assumption|]. intros Hi. rewrite (Hid Hi). assumption.
Qed.
End Setup.

(** C14.  A parallel map with any number 2^lg of submaps, filled by any single-threaded program [os]; any number
    of threads then make any calls (progs: one list of calls per thread), interleaved arbitrarily; the lock is
    exclusive (std::mutex).  At every moment of every execution the results obtained so far are those of the calls
    one at a time in an order L compatible with real time, no call has undefined behaviour or loops, and whenever
    no call is in progress iterating the container yields the contents this order gives. *)
Theorem C14_linearizable : forall (K V : Type) (hash : K -> N) (eqb : K -> K -> bool) (E : env) (lg : nat) (pref : bool)
    (os : list (op K V)) ps rs progs s tr,
  real_env E -> KeyOK hash eqb -> lg <= 12 -> Forall (p_op_ok E lg) os -> p_run hash eqb E lg (p_empty lg) os = Ok (ps, rs) ->
  reach (code hash eqb E lg Mutex) pref (start ps progs) s tr ->
  (exists m0 L m1, s_run eqb [] os rs m0 /\ linearization tr L /\ c_run (c_step eqb) m0 L m1 /\
    (idle s -> exists l, p_to_list E (st_shards s) = Ok l /\ Permutation l m1)) /\
  (forall i, step (code hash eqb E lg Mutex) pref s i <> Some UB).
Proof.
  intros K V hash eqb E lg pref os ps rs progs s tr HE HK Hlg Ho Hrun Hreach. pose proof (real_env_ok E HE) as HE'.
  destruct (conc_ok hash eqb E lg HE' HK Hlg Mutex pref os ps rs progs s tr Ho Hrun Hreach) as [(m0 & L & m1 & H1 & H2 & H3 & H4) H5].
  split; [|assumption]. exists m0, L, m1. split; [assumption|]. split; [assumption|]. split; [exact H3|].
  intros Hi. destruct (H4 Hi) as [Hg Hp]. exists (pelems (st_shards s)). split; [|assumption].
  apply (p_to_list_ok hash eqb E HE' HK); [apply (pg_good _ _ _ _ _ Hg)|]. rewrite (pg_len _ _ _ _ _ Hg). apply num_pos.
Qed.
Print Assumptions C14_linearizable.

(** C14, memory safety for both kinds of mutex: no two threads are ever about to access the same submap, one of
    them writing; no call has undefined behaviour. *)
Theorem C14_no_data_race : forall (K V : Type) (hash : K -> N) (eqb : K -> K -> bool) (E : env) (lg : nat) (dc : disc) (pref : bool)
    (os : list (op K V)) ps rs progs s tr,
  real_env E -> KeyOK hash eqb -> lg <= 12 -> Forall (p_op_ok E lg) os -> p_run hash eqb E lg (p_empty lg) os = Ok (ps, rs) ->
  reach (code hash eqb E lg dc) pref (start ps progs) s tr ->
  ~ race s /\ forall i, step (code hash eqb E lg dc) pref s i <> Some UB.
Proof.
  intros K V hash eqb E lg dc pref os ps rs progs s tr HE HK Hlg Ho Hrun Hreach. pose proof (real_env_ok E HE) as HE'.
  destruct (setup hash eqb E lg HE' HK Hlg os ps rs Ho Hrun) as (m0 & _ & HPR). split.
  - eapply (no_race (code hash eqb E lg dc) pref (shard hash lg) (spec hash eqb E lg dc) (sgood hash eqb E lg) (code_ok hash eqb E lg dc HE' HK));
      [eapply shard_lt; exact HPR|eapply shards_good; exact HPR|exact Hreach].
  - eapply (conc_ok hash eqb E lg HE' HK Hlg); eassumption.
Qed.
Print Assumptions C14_no_data_race.

(** C14 with std::shared_mutex, what remains: everything but the answers of erase and erase_if, which may claim to
    have erased a key that is absent.  Missing: exact answers of erase/erase_if (refuted below). *)
Theorem C14_shared_mutex_partial : forall (K V : Type) (hash : K -> N) (eqb : K -> K -> bool) (E : env) (lg : nat) (pref : bool)
    (os : list (op K V)) ps rs progs s tr,
  real_env E -> KeyOK hash eqb -> lg <= 12 -> Forall (p_op_ok E lg) os -> p_run hash eqb E lg (p_empty lg) os = Ok (ps, rs) ->
  reach (code hash eqb E lg SharedMutex) pref (start ps progs) s tr ->
  exists m0 L m1, s_run eqb [] os rs m0 /\ linearization tr L /\ c_run (c_step_weak eqb) m0 L m1 /\
    (idle s -> exists l, p_to_list E (st_shards s) = Ok l /\ Permutation l m1).
Proof.
  intros K V hash eqb E lg pref os ps rs progs s tr HE HK Hlg Ho Hrun Hreach. pose proof (real_env_ok E HE) as HE'.
  destruct (conc_ok hash eqb E lg HE' HK Hlg SharedMutex pref os ps rs progs s tr Ho Hrun Hreach) as [(m0 & L & m1 & H1 & H2 & H3 & H4) H5].
  exists m0, L, m1. split; [assumption|]. split; [assumption|]. split; [exact H3|].
  intros Hi. destruct (H4 Hi) as [Hg Hp]. exists (pelems (st_shards s)). split; [|assumption].
  apply (p_to_list_ok hash eqb E HE' HK); [apply (pg_good _ _ _ _ _ Hg)|]. rewrite (pg_len _ _ _ _ _ Hg). apply num_pos.
Qed.
Print Assumptions C14_shared_mutex_partial.

(** C16, calls on one container: while a thread has a call in progress or to make, some thread can take a step,
    and no execution is infinite; for both kinds of mutex, with and without writer preference. *)
Theorem C16_single_key_calls_progress : forall (K V : Type) (hash : K -> N) (eqb : K -> K -> bool) (E : env) (lg : nat) (dc : disc) (pref : bool)
    (os : list (op K V)) ps rs progs s tr,
  real_env E -> KeyOK hash eqb -> lg <= 12 -> Forall (p_op_ok E lg) os -> p_run hash eqb E lg (p_empty lg) os = Ok (ps, rs) ->
  reach (code hash eqb E lg dc) pref (start ps progs) s tr ->
  (~ finished s -> exists i s' ev, step (code hash eqb E lg dc) pref s i = Some (Ok (s', ev))) /\
  Acc (fun s' s => exists i ev, step (code hash eqb E lg dc) pref s i = Some (Ok (s', ev))) s.
Proof.
  intros K V hash eqb E lg dc pref os ps rs progs s tr HE HK Hlg Ho Hrun Hreach. pose proof (real_env_ok E HE) as HE'.
  destruct (setup hash eqb E lg HE' HK Hlg os ps rs Ho Hrun) as (m0 & _ & HPR). split; [|apply terminates].
  eapply (progress (code hash eqb E lg dc) pref (shard hash lg) (spec hash eqb E lg dc) (sgood hash eqb E lg) (code_ok hash eqb E lg dc HE' HK));
      [eapply shard_lt; exact HPR|eapply shards_good; exact HPR|exact Hreach].
Qed.
Print Assumptions C16_single_key_calls_progress.

(** ** How many calls may claim to have erased a key *)
Section Erase.
Context {K V : Type} (eqb : K -> K -> bool).
(** o may put key k into the map / removes key k *)
Definition puts (k : K) (o : cop K V) : bool :=
  match o with CInsert k' _ | CAssign k' _ | CTryL k' _ _ => eqb k k' | _ => false end.
Definition erases (k : K) (o : cop K V) : bool :=
  match o with CErase k' => eqb k k' | CEraseIf k' _ => eqb k k' | _ => false end.
Definition erase_wins (k : K) (e : entry (cop K V) (cout V)) : bool :=
  let '(_, o, r) := e in erases k o && match r with CRes true _ => true | _ => false end.
Definition put_entry (k : K) (e : entry (cop K V) (cout V)) : bool := let '(_, o, _) := e in puts k o.
Definition present (m : list (K * V)) (k : K) : nat := match s_find eqb m k with Some _ => 1 | None => 0 end.
Context (hash : K -> N) (HK : KeyOK hash eqb).

Lemma s_find_eqb (m : list (K * V)) k k' : eqb k k' = true -> s_find eqb m k = s_find eqb m k'.
Proof using HK.
  intros H. induction m as [|x m IH]; cbn; [reflexivity|].
  destruct (eqb k (fst x)) eqn:E1, (eqb k' (fst x)) eqn:E2; try assumption; try reflexivity; exfalso.
  - rewrite (ko_sym _ _ HK) in H. pose proof (ko_trans _ _ HK _ _ _ H E1). congruence.
  - pose proof (ko_trans _ _ HK _ _ _ H E2). congruence.
Qed.
Lemma present_update (m : list (K * V)) k k' v : present (s_update eqb m k' v) k = present m k.
Proof using.
  unfold present, s_update. induction m as [|x m IH]; [reflexivity|]. cbn. destruct (eqb k' (fst x)); cbn; destruct (eqb k (fst x)); auto.
Qed.
Lemma present_erase (m : list (K * V)) k k' : present (s_erase eqb m k') k = if eqb k k' then 0 else present m k.
Proof using HK.
  unfold present, s_erase. induction m as [|x m IH]; [destruct (eqb k k'); reflexivity|]. cbn.
  destruct (eqb k' (fst x)) eqn:E1; cbn.
  - rewrite IH. destruct (eqb k k') eqn:E2; [reflexivity|]. destruct (eqb k (fst x)) eqn:E3; [|reflexivity]. exfalso.
    rewrite (ko_sym _ _ HK) in E1. pose proof (ko_trans _ _ HK _ _ _ E3 E1). congruence.
  - destruct (eqb k (fst x)) eqn:E3; [|assumption]. destruct (eqb k k') eqn:E2; [|reflexivity]. exfalso.
    rewrite (ko_sym _ _ HK) in E2. pose proof (ko_trans _ _ HK _ _ _ E2 E3). congruence.
Qed.
Lemma present_le (m : list (K * V)) k : present m k <= 1.
Proof using. unfold present. destruct (s_find eqb m k); lia. Qed.
Lemma present_cons (m : list (K * V)) k k' v : present ((k', v) :: m) k <= present m k + (if eqb k k' then 1 else 0).
Proof using. unfold present. cbn. destruct (eqb k k'); [lia|]. lia. Qed.
Lemma wins_step (m : list (K * V)) o r m' id k : c_step eqb m o r m' ->
  (if erase_wins k (id, o, r) then 1 else 0) + present m' k <= present m k + (if put_entry k (id, o, r) then 1 else 0).
Proof using HK.
  intros H. unfold c_step in H.
  destruct o as [k' v|k' v|k' f v|k'|k' f|k'|k'|k' p]; cbn [c_key erase_wins erases puts put_entry andb] in *;
    destruct (s_find eqb m k') as [e|] eqn:Hf.
  all: try (destruct (p e)).
  all: repeat match goal with H : _ \/ _ |- _ => destruct H end.
  all: match goal with H : _ /\ _ |- _ => destruct H as [-> ->] end.
  all: rewrite ?present_update, ?present_erase; try (pose proof (present_cons m k k' v)).
  all: destruct (eqb k k') eqn:Hk; cbn in *; try lia.
  all: unfold present; rewrite (s_find_eqb m k k' Hk), Hf; lia.
Qed.
Lemma wins_run m (L : list (entry (cop K V) (cout V))) m' k : c_run (c_step eqb) m L m' ->
  length (List.filter (erase_wins k) L) + present m' k <= present m k + length (List.filter (put_entry k) L).
Proof using HK.
  induction 1 as [m|m L m1 id o r m2 _ IH Hst]; cbn; [lia|]. rewrite !List.filter_app, !app_length.
  pose proof (wins_step _ _ _ _ id k Hst) as Hs. cbn [List.filter].
  destruct (erase_wins k (id, o, r)), (put_entry k (id, o, r)); cbn [length]; lia.
Qed.

(** the calls that claim to have erased k; the calls that may have put it in *)
Definition inv_of (f : cop K V -> bool) (ev : event (cop K V) (cout V)) : bool := match ev with EInv _ o => f o | _ => false end.
Definition claims (tr : list (event (cop K V) (cout V))) (k : K) (id : cid) : Prop :=
  exists o b, In (EInv id o) tr /\ erases k o = true /\ In (ERes id (CRes true b)) tr.

Lemma claims_bound tr L m m' k ids : linearization tr L -> c_run (c_step eqb) m L m' ->
  (forall id o1 o2, In (EInv id o1) tr -> In (EInv id o2) tr -> o1 = o2) ->
  NoDup ids -> Forall (claims tr k) ids -> length ids <= present m k + length (List.filter (inv_of (puts k)) tr).
Proof using HK.
  intros HL Hrun Hfun Hnd Hids. pose proof (wins_run m L m' k Hrun) as Hw.
  assert (H1 : length ids <= length (List.filter (erase_wins k) L)).
  { rewrite <- (map_length e_id (List.filter _ L)). apply NoDup_incl_length; [apply NoDup_ListNoDup; assumption|].
    intros id Hin. rewrite Forall_forall in Hids. destruct (Hids id) as (o & b & Hinv & He & Hres); [apply elem_of_list_In; assumption|].
    destruct (lin_complete _ _ HL _ _ Hres) as (o' & Ho'). pose proof (lin_called _ _ HL _ _ _ Ho') as Hinv'.
    assert (o' = o) as -> by (eapply Hfun; eassumption). apply in_map_iff. exists (id, o, CRes true b). split; [reflexivity|].
    apply filter_In. split; [assumption|]. cbn. rewrite He. reflexivity. }
  assert (H2 : length (List.filter (put_entry k) L) <= length (List.filter (inv_of (puts k)) tr)).
  { set (eid := fun ev : event (cop K V) (cout V) => match ev with EInv id _ | ERes id _ => id end).
    rewrite <- (map_length e_id (List.filter _ L)), <- (map_length eid (List.filter _ tr)). apply NoDup_incl_length.
    - apply NoDup_ListNoDup. pose proof (lin_once _ _ HL) as Ho. clear -Ho. induction L as [|x L IH]; [constructor|].
      cbn in Ho. apply NoDup_cons in Ho as [Hn Ho]. cbn. destruct (put_entry k x); [|auto]. cbn. apply NoDup_cons. split; [|auto].
      intros Hin. apply Hn. apply elem_of_list_In in Hin. apply elem_of_list_In. apply in_map_iff in Hin. destruct Hin as (y & <- & Hy).
      apply filter_In in Hy. apply in_map. apply Hy.
    - intros id Hin. apply in_map_iff in Hin. destruct Hin as ([[id' o] r] & <- & Hy). apply filter_In in Hy. destruct Hy as [Hy1 Hy2].
      apply in_map_iff. exists (EInv id' o). split; [reflexivity|]. apply filter_In. split; [|exact Hy2]. eapply lin_called; eassumption. }
  lia.
Qed.
End Erase.

(** every call number is used once *)
Lemma inv_unique {T O R} (code : O -> cmd T R) pref ts progs s tr : reach code pref (start ts progs) s tr ->
  (forall id o1 o2, In (EInv id o1) tr -> In (EInv id o2) tr -> o1 = o2) /\
  (forall i n o, In (EInv (i, n) o) tr -> exists th, st_threads s !! i = Some th /\ (n < th_n th \/ (n = th_n th /\ exists c, th_cur th = Some (o, c)))).
Proof.
  induction 1 as [|s tr i s' ev Hr [IH1 IH2] Hs].
  - split; [intros id o1 o2 []|intros i n o []].
  - unfold step in Hs. destruct (st_threads s !! i) as [th|] eqn:Hi; [|discriminate]. pose proof (lookup_lt_Some _ _ _ Hi) as Hlt.
    assert (Hstay : forall o c c', th_cur th = Some (o, c) -> forall j n o', In (EInv (j, n) o') tr ->
      exists th', <[i := go th o c']> (st_threads s) !! j = Some th' /\ (n < th_n th' \/ (n = th_n th' /\ exists c, th_cur th' = Some (o', c)))).
    { intros o c c' Hc j n o' Hin. destruct (IH2 j n o' Hin) as (thj & Hj & Hcase). destruct (Nat.eq_dec i j) as [<-|Hne].
      - rewrite list_lookup_insert by assumption. eexists. split; [reflexivity|]. rewrite Hi in Hj. injection Hj as <-. cbn.
        destruct Hcase as [?|(? & c0 & Hc0)]; [auto|]. right. split; [assumption|]. rewrite Hc in Hc0. injection Hc0 as -> ->. eauto.
      - rewrite list_lookup_insert_ne by assumption. eauto. }
    destruct (th_cur th) as [[o c]|] eqn:Hc.
    + destruct c as [r|m d k|m d k|m k|m g k|].
      * injection Hs as <- <-. split.
        -- intros id o1 o2 H1 H2. apply in_app_or in H1, H2. destruct H1 as [H1|[H1|[]]]; [|discriminate]. destruct H2 as [H2|[H2|[]]]; [|discriminate]. eauto.
        -- intros j n o' Hin. apply in_app_or in Hin. destruct Hin as [Hin|[Hin|[]]]; [|discriminate]. cbn.
           destruct (IH2 j n o' Hin) as (thj & Hj & Hcase). destruct (Nat.eq_dec i j) as [<-|Hne].
           ++ rewrite list_lookup_insert by assumption. eexists. split; [reflexivity|]. rewrite Hi in Hj. injection Hj as <-. cbn. left. destruct Hcase as [?|[? _]]; lia.
           ++ rewrite list_lookup_insert_ne by assumption. eauto.
      * destruct (st_locks s !! m); [|discriminate]. destruct (owns _ _); [discriminate|]. destruct (free_for _ _ _ _ _); [|discriminate].
        injection Hs as <- <-. rewrite app_nil_r. split; [assumption|]. cbn. eauto.
      * destruct (st_locks s !! m); [|discriminate]. destruct (release _ _ _); [|discriminate].
        injection Hs as <- <-. rewrite app_nil_r. split; [assumption|]. cbn. eauto.
      * destruct (st_shards s !! m); [|discriminate]. injection Hs as <- <-. rewrite app_nil_r. split; [assumption|]. cbn. eauto.
      * destruct (st_shards s !! m); [|discriminate]. injection Hs as <- <-. rewrite app_nil_r. split; [assumption|]. cbn. eauto.
      * discriminate.
    + destruct (th_todo th) as [|o os]; [discriminate|]. injection Hs as <- <-.
      assert (Hnew : forall o', ~ In (EInv (i, th_n th) o') tr).
      { intros o' Hin. destruct (IH2 _ _ _ Hin) as (th' & Hi' & Hcase). rewrite Hi in Hi'. injection Hi' as <-.
        destruct Hcase as [?|(_ & c & Hc')]; [lia|congruence]. }
      split.
      * intros id o1 o2 H1 H2. apply in_app_or in H1, H2.
        destruct H1 as [H1|[H1|[]]], H2 as [H2|[H2|[]]]; [eauto| | |congruence].
        -- injection H2 as <- <-. exfalso. eapply Hnew. exact H1.
        -- injection H1 as <- <-. exfalso. eapply Hnew. exact H2.
      * intros j n o' Hin. cbn. apply in_app_or in Hin. destruct Hin as [Hin|[Hin|[]]].
        -- destruct (IH2 j n o' Hin) as (thj & Hj & Hcase). destruct (Nat.eq_dec i j) as [<-|Hne].
           ++ rewrite list_lookup_insert by assumption. eexists. split; [reflexivity|]. rewrite Hi in Hj. injection Hj as <-. cbn.
              destruct Hcase as [?|(_ & c & Hc')]; [auto|congruence].
           ++ rewrite list_lookup_insert_ne by assumption. eauto.
        -- injection Hin as <- <- <-. rewrite list_lookup_insert by assumption. eexists. split; [reflexivity|]. cbn. right. eauto.
Qed.

(** C15 for an exclusive mutex: at most as many calls of erase / erase_if claim to have erased k as there were
    calls that may have inserted k (plus one if k was there at the start). *)
Theorem C15_exclusive_mutex_partial : forall (K V : Type) (hash : K -> N) (eqb : K -> K -> bool) (E : env) (lg : nat) (pref : bool)
    (os : list (op K V)) ps rs progs s tr (k : K) (ids : list cid),
  real_env E -> KeyOK hash eqb -> lg <= 12 -> Forall (p_op_ok E lg) os -> p_run hash eqb E lg (p_empty lg) os = Ok (ps, rs) ->
  reach (code hash eqb E lg Mutex) pref (start ps progs) s tr ->
  NoDup ids -> Forall (claims eqb tr k) ids ->
  exists m0, s_run eqb [] os rs m0 /\
    length ids <= (if s_find eqb m0 k then 1 else 0) + length (List.filter (inv_of (puts eqb k)) tr).
Proof.
  intros K V hash eqb E lg pref os ps rs progs s tr k ids HE HK Hlg Ho Hrun Hreach Hnd Hids.
  destruct (C14_linearizable K V hash eqb E lg pref os ps rs progs s tr HE HK Hlg Ho Hrun Hreach) as [(m0 & L & m1 & H1 & H2 & H3 & _) _].
  exists m0. split; [assumption|]. eapply claims_bound; try eassumption. eapply inv_unique. exact Hreach.
Qed.
Print Assumptions C15_exclusive_mutex_partial.

(** ** Schedules *)
Fixpoint sched {T O R} (code : O -> cmd T R) (pref : bool) (s : state T O R) (l : list nat) : option (state T O R * list (event O R)) :=
  match l with
  | [] => Some (s, [])
  | i :: l' =>
      match step code pref s i with
      | Some (Ok (s', ev)) => match sched code pref s' l' with Some (s2, tr) => Some (s2, ev ++ tr) | None => None end
      | _ => None
      end
  end.
Lemma sched_reach {T O R} (code : O -> cmd T R) pref s0 l : forall s tr0 s' tr, reach code pref s0 s tr0 -> sched code pref s l = Some (s', tr) ->
  reach code pref s0 s' (tr0 ++ tr).
Proof.
  induction l as [|i l IH]; intros s tr0 s' tr Hr Hs; cbn in Hs.
  - injection Hs as <- <-. rewrite app_nil_r. assumption.
  - destruct (step code pref s i) as [[[s1 ev]| | | |]|] eqn:Hst; try discriminate.
    destruct (sched code pref s1 l) as [[s2 tr2]|] eqn:Hsc; [|discriminate]. injection Hs as <- <-.
    rewrite app_assoc. eapply IH; [|exact Hsc]. econstructor; eassumption.
Qed.
(** the trace of a schedule *)
Definition trace_of (dc : disc) (os : list (op N N)) (progs : list (list (cop N N))) (l : list nat) : option (list (event (cop N N) (cout N))) :=
  match p_run exp_hash N.eqb ex_env 2 (p_empty 2) os with
  | Ok (ps, _) => option_map snd (sched (code exp_hash N.eqb ex_env 2 dc) false (start ps progs) l)
  | _ => None
  end.
Lemma trace_reach dc os progs l tr : trace_of dc os progs l = Some tr ->
  exists ps rs s, p_run exp_hash N.eqb ex_env 2 (p_empty 2) os = Ok (ps, rs) /\ reach (code exp_hash N.eqb ex_env 2 dc) false (start ps progs) s tr.
Proof.
  unfold trace_of. destruct (p_run exp_hash N.eqb ex_env 2 (p_empty 2) os) as [[ps rs]| | | |]; try discriminate.
  destruct (sched (code exp_hash N.eqb ex_env 2 dc) false (start ps progs) l) as [[s tr']|] eqn:Hs; [|discriminate]. intros H. injection H as <-.
  exists ps, rs, s. split; [reflexivity|]. change tr' with ([] ++ tr'). eapply sched_reach; [constructor|exact Hs].
Qed.

(** C14 is not vacuous: three threads, two of them on the same key. *)
Example C14_example : exists ps rs s tr,
  Forall (p_op_ok ex_env 2) (ins (nums 0 12)) /\ p_run exp_hash N.eqb ex_env 2 (p_empty 2) (ins (nums 0 12)) = Ok (ps, rs) /\
  reach (code exp_hash N.eqb ex_env 2 Mutex) false
    (start ps [[CErase 3%N; CContains 3%N]; [CTryL 3%N (fun v => v + 1)%N 33%N]; [CModify 3%N (fun v => v * 2)%N]]) s tr /\
  In (ERes (0, 0) (CRes true None)) tr /\ In (ERes (0, 1) (CRes true None)) tr /\ In (ERes (1, 0) (CRes true None)) tr /\
  In (ERes (2, 0) (CRes true (Some 33%N))) tr.
Proof.
  destruct (trace_of Mutex (ins (nums 0 12)) [[CErase 3%N; CContains 3%N]; [CTryL 3%N (fun v => v + 1)%N 33%N]; [CModify 3%N (fun v => v * 2)%N]]
    [0;1;2;0;0;0;0;0;0; 1;1;1;1;1;1;1; 2;0;2;2;2;2; 0;0;0;0;2]) as [tr|] eqn:Ht; [|vm_compute in Ht; discriminate].
  destruct (trace_reach _ _ _ _ _ Ht) as (ps & rs & s & H1 & H2). exists ps, rs, s, tr.
  split; [apply Forall_forall; intros o Ho; apply elem_of_list_fmap in Ho; destruct Ho as (k & -> & _); exact I|].
  split; [assumption|]. split; [exact H2|]. vm_compute in Ht. injection Ht as <-. cbn. auto 40.
Qed.

(** C15 is false with std::shared_mutex: two threads erase a key that was inserted once; both find it under the
    shared lock, and the one that comes second to the unique lock finds it gone and nevertheless returns 1. *)
Definition c15_progs : list (list (cop N N)) := [[CErase 3%N]; [CErase 3%N]].
Definition c15_sched : list nat := [0;0;0;0; 1;1;1;1; 0;0;0;0;0;0; 1;1;1;1].
Theorem C15_two_winners_refuted : exists (os : list (op N N)) ps rs s tr,
  Forall (p_op_ok ex_env 2) os /\ p_run exp_hash N.eqb ex_env 2 (p_empty 2) os = Ok (ps, rs) /\
  List.filter (fun o => match o with OEmplace 3%N _ => true | _ => false end) os = [OEmplace 3%N 3%N] /\
  reach (code exp_hash N.eqb ex_env 2 SharedMutex) false (start ps [[CErase 3%N]; [CErase 3%N]]) s tr /\
  tr = [EInv (0, 0) (CErase 3%N); EInv (1, 0) (CErase 3%N); ERes (0, 0) (CRes true None); ERes (1, 0) (CRes true None)] /\
  (* no order of the two calls explains this *)
  forall L m0 m1, s_run N.eqb [] os rs m0 -> linearization tr L -> ~ c_run (c_step N.eqb) m0 L m1.
Proof.
  destruct (trace_of SharedMutex (ins (nums 0 12)) c15_progs c15_sched) as [tr|] eqn:Ht; [|vm_compute in Ht; discriminate].
  destruct (trace_reach _ _ _ _ _ Ht) as (ps & rs & s & H1 & H2). exists (ins (nums 0 12)), ps, rs, s, tr.
  split; [apply Forall_forall; intros o Ho; apply elem_of_list_fmap in Ho; destruct Ho as (k & -> & _); exact I|].
  split; [assumption|]. split; [reflexivity|]. split; [exact H2|].
  pose proof (proj1 (inv_unique _ _ _ _ _ _ H2)) as Hfun.
  assert (Htr : tr = [EInv (0, 0) (CErase 3%N); EInv (1, 0) (CErase 3%N); ERes (0, 0) (CRes true None); ERes (1, 0) (CRes true None)])
    by (vm_compute in Ht; injection Ht as <-; reflexivity).
  split; [exact Htr|]. intros L m0 m1 _ HL Hrun.
  assert (Hb : length [(0, 0); (1, 0)] <= present N.eqb m0 3%N + length (List.filter (inv_of (puts N.eqb 3%N)) tr)).
  { eapply (claims_bound N.eqb exp_hash exp_key tr L m0 m1 3%N); [exact HL|exact Hrun|exact Hfun| |].
    - apply NoDup_cons. split; [rewrite elem_of_list_singleton; discriminate|apply NoDup_singleton].
    - rewrite Htr. repeat constructor; exists (CErase 3%N), None; cbn; auto 10. }
  rewrite Htr in Hb. cbn in Hb. pose proof (present_le N.eqb m0 3%N). lia.
Qed.
Print Assumptions C15_two_winners_refuted.

(** C15 for erase_if with a predicate that is always true: the second call returns true although its predicate
    was never called. *)
Theorem C15_erase_if_two_winners_refuted : exists ps rs s tr,
  p_run exp_hash N.eqb ex_env 2 (p_empty 2) (ins (nums 0 12)) = Ok (ps, rs) /\
  reach (code exp_hash N.eqb ex_env 2 SharedMutex) false (start ps [[CEraseIf 3%N (fun _ => true)]; [CEraseIf 3%N (fun _ => true)]]) s tr /\
  In (ERes (0, 0) (CRes true (Some 3%N))) tr /\ In (ERes (1, 0) (CRes true None)) tr.
Proof.
  destruct (trace_of SharedMutex (ins (nums 0 12)) [[CEraseIf 3%N (fun _ => true)]; [CEraseIf 3%N (fun _ => true)]] c15_sched) as [tr|] eqn:Ht;
    [|vm_compute in Ht; discriminate].
  destruct (trace_reach _ _ _ _ _ Ht) as (ps & rs & s & H1 & H2). exists ps, rs, s, tr.
  split; [assumption|]. split; [exact H2|]. vm_compute in Ht. injection Ht as <-. cbn. auto 10.
Qed.
Print Assumptions C15_erase_if_two_winners_refuted.

(** The hypotheses of C15_exclusive_mutex_partial are met by the same two calls under an exclusive mutex. *)
Example C15_exclusive_example : exists ps rs s tr,
  p_run exp_hash N.eqb ex_env 2 (p_empty 2) (ins (nums 0 12)) = Ok (ps, rs) /\
  reach (code exp_hash N.eqb ex_env 2 Mutex) false (start ps c15_progs) s tr /\
  claims N.eqb tr 3%N (0, 0) /\ In (ERes (1, 0) (CRes false None)) tr.
Proof.
  destruct (trace_of Mutex (ins (nums 0 12)) c15_progs [0;1;0;0;0;0;0;0;1;1;1;1]) as [tr|] eqn:Ht; [|vm_compute in Ht; discriminate].
  destruct (trace_reach _ _ _ _ _ Ht) as (ps & rs & s & H1 & H2). exists ps, rs, s, tr.
  split; [assumption|]. split; [exact H2|]. vm_compute in Ht. injection Ht as <-.
  split; [exists (CErase 3%N), None|]; cbn; auto 10.
Qed.
