(** Calls made of any number of critical sections on any shards, each keeping its shard good: results satisfy what
    is claimed of them, no undefined behaviour, no data race, and some thread can always go on.
    (Conc.linearizable is about calls with one effective section; calls here may have several, and nest.) *)
From stdpp Require Import list.
From Coq Require Import Arith Lia.
From Verif.Common Require Import Res.
From Verif.Par Require Import Conc ConcProof.
Local Open Scope nat_scope.

Section ConcSafe.
Context {T O R : Type} (code : O -> cmd T R) (pref : bool) (n : nat) (good : nat -> T -> Prop) (Q : O -> R -> Prop).
Notation cmd := (cmd T R).
Notation state := (state T O R).
Notation step := (step code pref).

Inductive safe (q : R -> Prop) : cmd -> Prop :=
| safe_done r : q r -> safe q (CDone r)
| safe_lock m d c : m < n -> (forall t, good m t -> exists t' c', sec m d c t = Some (t', c') /\ good m t' /\ safe q c') -> safe q (CLock m d c).
Context (Hcode : forall o, safe (Q o) (code o)).

Inductive phase := PIdle | POut | PIn (m : nat) (d : mode).
Definition thread_ok (s : state) (tr : list (event O R)) (i : nat) (th : thread T O R) (p : phase) : Prop :=
  match p with
  | PIdle => th_cur th = None
  | POut => exists o c, th_cur th = Some (o, c) /\ safe (Q o) c /\ In (EInv (i, th_n th) o) tr
  | PIn m d => exists o c t t' c', th_cur th = Some (o, c) /\ In (EInv (i, th_n th) o) tr /\ st_shards s !! m = Some t /\
      sec m d c t = Some (t', c') /\ good m t' /\ safe (Q o) c'
  end.
Record ok (s : state) (tr : list (event O R)) (ph : list phase) : Prop := {
  o_len : length ph = length (st_threads s);
  o_lens : length (st_shards s) = n;
  o_lenl : length (st_locks s) = n;
  o_threads : forall i th p, st_threads s !! i = Some th -> ph !! i = Some p -> thread_ok s tr i th p;
  o_locks : forall m l, st_locks s !! m = Some l ->
    (forall i, lw l = Some i <-> ph !! i = Some (PIn m Excl)) /\
    (forall i, In i (lr l) <-> ph !! i = Some (PIn m Shared)) /\ NoDup (lr l) /\ (lw l <> None -> lr l = []);
  o_stable : forall m l t, st_locks s !! m = Some l -> lw l = None -> st_shards s !! m = Some t -> good m t;
  o_res : forall id r, In (ERes id r) tr -> exists o, In (EInv id o) tr /\ Q o r
}.

Lemma frame s tr s' tr' i th p : thread_ok s tr i th p -> (forall e, In e tr -> In e tr') ->
  (forall m d, p = PIn m d -> st_shards s' !! m = st_shards s !! m) -> thread_ok s' tr' i th p.
Proof using.
  intros H Htr Hm. destruct p as [| |m d]; [exact H| |].
  - destruct H as (o & c & H1 & H2 & H3). exists o, c. auto.
  - destruct H as (o & c & t & t' & c' & H1 & H2 & H3 & H4). exists o, c, t, t', c'. split; [assumption|]. split; [auto|]. split; [rewrite (Hm m d eq_refl); assumption|assumption].
Qed.
Lemma res_inv tr i nn o : (forall id r, In (ERes id r) tr -> exists o, In (EInv id o) tr /\ Q o r) ->
  forall id r, In (ERes id r) (tr ++ [EInv (i, nn) o]) -> exists o1, In (EInv id o1) (tr ++ [@EInv O R (i, nn) o]) /\ Q o1 r.
Proof using.
  intros H id r Hin. apply in_app_or in Hin. destruct Hin as [Hin|[Hin|[]]]; [|discriminate].
  destruct (H id r Hin) as (o' & H1 & H2). exists o'. split; [apply in_or_app; auto|assumption].
Qed.
Ltac insl := rewrite lookup_ins in * by (first [assumption|lia]).

Lemma step_ok s tr ph i r : ok s tr ph -> step s i = Some r ->
  exists s' ev ph', r = Ok (s', ev) /\ ok s' (tr ++ ev) ph'.
Proof using Hcode.
  intros [Hlen Hlens Hlenl Hth Hlocks Hstable Hres] Hstep.
  unfold Conc.step in Hstep. destruct (st_threads s !! i) as [th|] eqn:Hi; [|discriminate].
  pose proof (lookup_lt_Some _ _ _ Hi) as Hlt.
  destruct (ph !! i) as [p|] eqn:Hp; [|apply lookup_ge_None in Hp; lia].
  pose proof (Hth i th p Hi Hp) as T4.
  assert (Hlk0 : forall p', (forall m d, p <> PIn m d) -> (forall m d, p' <> PIn m d) -> forall m l, st_locks s !! m = Some l ->
    (forall j, lw l = Some j <-> <[i := p']> ph !! j = Some (PIn m Excl)) /\
    (forall j, In j (lr l) <-> <[i := p']> ph !! j = Some (PIn m Shared)) /\ NoDup (lr l) /\ (lw l <> None -> lr l = [])).
  { intros p' Hn1 Hn2 m l Hl. destruct (Hlocks m l Hl) as (A1 & A2 & A3 & A4). split; [|split; [|auto]].
    - intros j. rewrite A1, lookup_ins by lia. destruct (decide (i = j)) as [<-|]; [|reflexivity]. rewrite Hp. split; intros H; exfalso; injection H; intros H'; first [exact (Hn1 _ _ H')|exact (Hn2 _ _ H')].
    - intros j. rewrite A2, lookup_ins by lia. destruct (decide (i = j)) as [<-|]; [|reflexivity]. rewrite Hp. split; intros H; exfalso; injection H; intros H'; first [exact (Hn1 _ _ H')|exact (Hn2 _ _ H')]. }
  destruct (th_cur th) as [[o c]|] eqn:Hcur.
  2:{ destruct (th_todo th) as [|o os] eqn:Hto; [discriminate|]. injection Hstep as <-.
    assert (p = PIdle) as ->.
    { destruct p; [reflexivity|destruct T4 as (? & ? & ? & _)|destruct T4 as (? & ? & ? & ? & ? & ? & _)]; congruence. }
    eexists _, _, (<[i := POut]> ph). split; [reflexivity|].
    constructor; cbn [set_thread st_threads st_shards st_locks]; try assumption.
    - rewrite !insert_length. assumption.
    - intros j th' p' Hj Hpj. rewrite lookup_ins in Hj by assumption. rewrite lookup_ins in Hpj by lia. destruct (decide (i = j)) as [<-|Hne].
      + injection Hj as <-. injection Hpj as <-. exists o, (code o). split; [reflexivity|]. split; [apply Hcode|]. apply in_or_app. right. left. reflexivity.
      + eapply frame; [eapply Hth; eassumption|intros; apply in_or_app; auto|reflexivity].
    - apply Hlk0; discriminate.
    - exact (res_inv _ _ _ _ Hres). }
  destruct c as [r0|m d k|m d k|m k|m g k|].
  - (* return *)
    injection Hstep as <-.
    assert (p = POut) as ->.
    { destruct p; [cbn in T4; congruence|reflexivity|]. destruct T4 as (? & ? & ? & ? & ? & E & _ & _ & E2 & _). rewrite Hcur in E. injection E as <- <-. discriminate. }
    destruct T4 as (o' & c' & E & Hs & Hinv). rewrite Hcur in E. injection E as <- <-. inversion Hs as [r' Hq|]; subst.
    eexists _, _, (<[i := PIdle]> ph). split; [reflexivity|].
    constructor; cbn [set_thread st_threads st_shards st_locks]; try assumption.
    + rewrite !insert_length. assumption.
    + intros j th' p' Hj Hpj. rewrite lookup_ins in Hj by assumption. rewrite lookup_ins in Hpj by lia. destruct (decide (i = j)) as [<-|Hne].
      * injection Hj as <-. injection Hpj as <-. reflexivity.
      * eapply frame; [eapply Hth; eassumption|intros; apply in_or_app; auto|reflexivity].
    + apply Hlk0; discriminate.
    + intros id r Hin. apply in_app_or in Hin. destruct Hin as [Hin|[[= <- <-]|[]]].
      * destruct (Hres _ _ Hin) as (o' & H1 & H2). exists o'. split; [apply in_or_app; auto|assumption].
      * exists o. split; [apply in_or_app; auto|assumption].
  - (* lock *)
    assert (p = POut) as ->.
    { destruct p; [cbn in T4; congruence|reflexivity|]. destruct T4 as (? & ? & ? & ? & ? & E & _ & _ & E2 & _). rewrite Hcur in E. injection E as <- <-. discriminate. }
    destruct T4 as (o' & c' & E & Hs & Hinv). rewrite Hcur in E. injection E as <- <-. inversion Hs as [|m' d' c' Hm Hsec]; subst.
    destruct (st_locks s !! m) as [l|] eqn:Hl; [|apply lookup_ge_None in Hl; lia].
    destruct (Hlocks m l Hl) as (A1 & A2 & A3 & A4).
    assert (Hown : owns l i = false).
    { unfold owns. destruct (lw l) as [j|] eqn:Hlw.
      - apply Nat.eqb_neq. intros <-. pose proof (proj1 (A1 i) eq_refl). congruence.
      - apply not_true_iff_false. rewrite existsb_in. intros Hin. apply A2 in Hin. congruence. }
    rewrite Hown in Hstep. destruct (free_for pref s m l d) eqn:Hfree; [|discriminate]. injection Hstep as <-.
    assert (Hlw : lw l = None) by (unfold free_for in Hfree; destruct (lw l); [destruct d; discriminate|reflexivity]).
    assert (Hlr : d = Excl -> lr l = []) by (intros ->; unfold free_for in Hfree; rewrite Hlw in Hfree; destruct (lr l); [reflexivity|discriminate]).
    destruct (st_shards s !! m) as [t|] eqn:Hv; [|apply lookup_ge_None in Hv; lia].
    destruct (Hsec t (Hstable m l t Hl Hlw Hv)) as (t' & c' & Hrun & Hg' & Hsafe').
    eexists _, _, (<[i := PIn m d]> ph). split; [reflexivity|]. rewrite app_nil_r.
    constructor; try assumption.
    + cbn. rewrite !insert_length. assumption.
    + cbn. rewrite insert_length. assumption.
    + intros j th' p' Hj Hpj. cbn in Hj. rewrite lookup_ins in Hj by assumption. rewrite lookup_ins in Hpj by lia. destruct (decide (i = j)) as [<-|Hne].
      * injection Hj as <-. injection Hpj as <-. exists o, k, t, t', c'. repeat split; assumption.
      * eapply frame; [eapply Hth; eassumption|auto|reflexivity].
    + intros m' l' Hl'. cbn in Hl'. rewrite lookup_ins in Hl' by lia. destruct (decide (m = m')) as [<-|Hne].
      * injection Hl' as <-. destruct d; cbn.
        -- rewrite Hlr by reflexivity. split; [|split; [|split; [constructor|auto]]]; intros j; rewrite lookup_ins by lia; destruct (decide (i = j)) as [<-|Hne].
           ++ split; reflexivity.
           ++ rewrite <- A1, Hlw. split; congruence.
           ++ split; [intros []|discriminate].
           ++ rewrite <- A2, Hlr by reflexivity. reflexivity.
        -- split; [|split; [|split; [|congruence]]].
           ++ intros j; rewrite lookup_ins by lia; destruct (decide (i = j)) as [<-|Hne]; [rewrite Hlw; split; discriminate|apply A1].
           ++ intros j; rewrite lookup_ins by lia; destruct (decide (i = j)) as [<-|Hne]; [split; auto|]. rewrite <- A2. split; [intros [?|?]; [congruence|assumption]|auto].
           ++ constructor; [|assumption]. rewrite elem_of_list_In, A2, Hp. discriminate.
      * destruct (Hlocks m' l' Hl') as (B1 & B2 & B3 & B4). split; [|split; [|auto]]; intros j; rewrite lookup_ins by lia;
          [rewrite B1|rewrite B2]; (destruct (decide (i = j)) as [<-|]; [rewrite Hp; split; [discriminate|congruence]|reflexivity]).
    + intros m' l' t0 Hl' Hlw' Ht0. cbn in Hl', Ht0. rewrite lookup_ins in Hl' by lia. destruct (decide (m = m')) as [<-|Hne]; [|eauto].
      rewrite Hv in Ht0. injection Ht0 as <-. eauto.
  - (* unlock *)
    assert (exists m0 d0, p = PIn m0 d0) as (m0 & d0 & ->).
    { destruct p; [cbn in T4; congruence| |eauto]. destruct T4 as (? & ? & E & Hs & _). rewrite Hcur in E. injection E as <- <-. inversion Hs. }
    destruct T4 as (o' & c' & t & t' & c'' & E & Hinv & Hs & Hrun & Hg' & Hsafe'). rewrite Hcur in E. injection E as <- <-.
    cbn [Conc.sec] in Hrun. destruct (Nat.eqb_spec m0 m) as [->|]; [|discriminate]. destruct (decide (d0 = d)) as [->|Hd]; [|rewrite bool_decide_eq_false_2 in Hrun by assumption; discriminate].
    rewrite bool_decide_eq_true_2 in Hrun by reflexivity. cbn in Hrun. injection Hrun as <- <-.
    pose proof (lookup_lt_Some _ _ _ Hs) as Hm.
    destruct (st_locks s !! m) as [l|] eqn:Hl; [|apply lookup_ge_None in Hl; lia].
    destruct (Hlocks m l Hl) as (A1 & A2 & A3 & A4).
    assert (exists l', release l i d = Some l') as [l' Hrel].
    { unfold release. destruct d.
      - rewrite (proj2 (A1 i) Hp), Nat.eqb_refl. eauto.
      - rewrite (proj2 (existsb_in i (lr l))) by (apply A2; assumption). eauto. }
    rewrite Hrel in Hstep. injection Hstep as <-.
    eexists _, _, (<[i := POut]> ph). split; [reflexivity|]. rewrite app_nil_r.
    constructor; try assumption.
    + cbn. rewrite !insert_length. assumption.
    + cbn. rewrite insert_length. assumption.
    + intros j th' p' Hj Hpj. cbn in Hj. rewrite lookup_ins in Hj by assumption. rewrite lookup_ins in Hpj by lia. destruct (decide (i = j)) as [<-|Hne].
      * injection Hj as <-. injection Hpj as <-. exists o, k. auto.
      * eapply frame; [eapply Hth; eassumption|auto|reflexivity].
    + intros m' l2 Hl2. cbn in Hl2. rewrite lookup_ins in Hl2 by lia. destruct (decide (m = m')) as [<-|Hne].
      * injection Hl2 as <-. unfold release in Hrel. destruct d.
        -- rewrite (proj2 (A1 i) Hp), Nat.eqb_refl in Hrel. injection Hrel as <-. cbn. split; [|split; [|split; [assumption|congruence]]]; intros j; rewrite lookup_ins by lia; destruct (decide (i = j)) as [<-|Hne].
           ++ split; discriminate.
           ++ rewrite <- A1, (proj2 (A1 i) Hp). split; congruence.
           ++ rewrite A4 by (rewrite (proj2 (A1 i) Hp); discriminate). split; [intros []|discriminate].
           ++ apply A2.
        -- rewrite (proj2 (existsb_in i (lr l))) in Hrel by (apply A2; assumption). injection Hrel as <-. cbn.
           assert (Hw : lw l = None) by (destruct (lw l) eqn:Hw; [|reflexivity]; apply A2 in Hp; rewrite A4 in Hp by discriminate; destruct Hp).
           split; [|split; [|split; [apply (remove_nat_nodup good); assumption|congruence]]]; intros j; rewrite lookup_ins by lia; destruct (decide (i = j)) as [<-|Hne].
           ++ rewrite Hw. split; discriminate.
           ++ apply A1.
           ++ rewrite (remove_nat_in good) by assumption. split; [intros [_ ?]; congruence|discriminate].
           ++ rewrite (remove_nat_in good) by assumption. rewrite A2. split; [intros [? _]; assumption|auto].
      * destruct (Hlocks m' l2 Hl2) as (B1 & B2 & B3 & B4). split; [|split; [|auto]]; intros j; rewrite lookup_ins by lia;
          [rewrite B1|rewrite B2]; (destruct (decide (i = j)) as [<-|]; [rewrite Hp; split; [congruence|discriminate]|reflexivity]).
    + intros m' l2 t0 Hl2 Hlw' Ht0. cbn in Hl2, Ht0. rewrite lookup_ins in Hl2 by lia. destruct (decide (m = m')) as [<-|Hne]; [|eauto].
      rewrite Hs in Ht0. injection Ht0 as <-. assumption.
  - (* read *)
    assert (exists m0 d0, p = PIn m0 d0) as (m0 & d0 & ->).
    { destruct p; [cbn in T4; congruence| |eauto]. destruct T4 as (? & ? & E & Hs & _). rewrite Hcur in E. injection E as <- <-. inversion Hs. }
    destruct T4 as (o' & c' & t & t' & c'' & E & Hinv & Hs & Hrun & Hg' & Hsafe'). rewrite Hcur in E. injection E as <- <-.
    cbn [Conc.sec] in Hrun. destruct (Nat.eqb_spec m0 m) as [->|]; [|discriminate]. rewrite Hs in Hstep. injection Hstep as <-.
    eexists _, _, ph. split; [reflexivity|]. rewrite app_nil_r. constructor; try assumption.
    + cbn. rewrite insert_length. assumption.
    + intros j th' p' Hj Hpj. cbn in Hj. rewrite lookup_ins in Hj by assumption. destruct (decide (i = j)) as [<-|Hne].
      * injection Hj as <-. rewrite Hp in Hpj. injection Hpj as <-. exists o, (k t), t, t', c''. repeat split; assumption.
      * eapply frame; [eapply Hth; eassumption|auto|reflexivity].
  - (* write *)
    assert (exists m0 d0, p = PIn m0 d0) as (m0 & d0 & ->).
    { destruct p; [cbn in T4; congruence| |eauto]. destruct T4 as (? & ? & E & Hs & _). rewrite Hcur in E. injection E as <- <-. inversion Hs. }
    destruct T4 as (o' & c' & t & t' & c'' & E & Hinv & Hs & Hrun & Hg' & Hsafe'). rewrite Hcur in E. injection E as <- <-.
    cbn [Conc.sec] in Hrun. destruct d0; [|discriminate]. destruct (Nat.eqb_spec m0 m) as [->|]; [|discriminate]. rewrite Hs in Hstep. injection Hstep as <-.
    pose proof (lookup_lt_Some _ _ _ Hs) as Hm. destruct (st_locks s !! m) as [l|] eqn:Hl; [|apply lookup_ge_None in Hl; lia].
    destruct (Hlocks m l Hl) as (A1 & A2 & A3 & A4).
    assert (Honly : forall j d0, ph !! j = Some (PIn m d0) -> j = i).
    { intros j d0 Hj. destruct d0; [apply A1 in Hj; apply A1 in Hp; congruence|]. apply A2 in Hj. rewrite A4 in Hj by (rewrite (proj2 (A1 i) Hp); discriminate). destruct Hj. }
    eexists _, _, ph. split; [reflexivity|]. rewrite app_nil_r. constructor; try assumption.
    + cbn. rewrite insert_length. assumption.
    + cbn. rewrite insert_length. assumption.
    + intros j th' p' Hj Hpj. cbn in Hj. rewrite lookup_ins in Hj by assumption. destruct (decide (i = j)) as [<-|Hne].
      * injection Hj as <-. rewrite Hp in Hpj. injection Hpj as <-. exists o, (k t), (g t), t', c''. cbn. rewrite list_lookup_insert by assumption. repeat split; assumption.
      * eapply frame; [eapply Hth; eassumption|auto|]. intros m' d' ->. cbn. apply list_lookup_insert_ne. intros ->. apply Hne. symmetry. eapply Honly. exact Hpj.
    + intros m' l' t0 Hl' Hlw' Ht0. cbn in Hl', Ht0. rewrite lookup_ins in Ht0 by assumption. destruct (decide (m = m')) as [<-|Hne]; [|eauto].
      rewrite Hl in Hl'. injection Hl' as <-. apply A1 in Hp. congruence.
  - (* failure *)
    exfalso. destruct p; [cbn in T4; congruence| |].
    + destruct T4 as (? & ? & E & Hs & _). rewrite Hcur in E. injection E as <- <-. inversion Hs.
    + destruct T4 as (? & ? & ? & ? & ? & E & _ & _ & E2 & _). rewrite Hcur in E. injection E as <- <-. discriminate.
Qed.

Context (ts : list T) (Hlen : length ts = n) (Hgood : forall m t, ts !! m = Some t -> good m t).
Lemma start_ok progs : ok (start ts progs) [] (map (fun _ => PIdle) progs).
Proof using Hlen Hgood.
  constructor; cbn.
  - rewrite !map_length. reflexivity.
  - assumption.
  - rewrite replicate_length. assumption.
  - intros i th p Hi Hp. rewrite list_lookup_fmap in Hi. rewrite list_lookup_fmap in Hp. destruct (progs !! i); [|discriminate]. cbn in Hi, Hp. injection Hi as <-. injection Hp as <-. reflexivity.
  - intros m l Hl. apply lookup_replicate in Hl. destruct Hl as [-> _]. cbn.
    assert (Hno : forall i d, map (fun _ : list O => PIdle) progs !! i <> Some (PIn m d)).
    { intros i d. rewrite list_lookup_fmap. destruct (progs !! i); discriminate. }
    split; [|split; [|split; [constructor|congruence]]].
    + intros i. split; [discriminate|]. intros H. destruct (Hno _ _ H).
    + intros i. split; [intros []|]. intros H. destruct (Hno _ _ H).
  - intros m l t _ _ Ht. eauto.
  - intros id r [].
Qed.
Lemma reach_ok progs s tr : reach code pref (start ts progs) s tr -> exists ph, ok s tr ph.
Proof using Hcode Hlen Hgood.
  induction 1 as [|s tr i s' ev _ [ph IH] Hs]; [eexists; apply start_ok|].
  destruct (step_ok _ _ _ _ _ IH Hs) as (s2 & ev2 & ph2 & E & H). injection E as <- <-. eauto.
Qed.

(** every result is as claimed, for the call it belongs to; no step has undefined behaviour; when no mutex is held
    exclusively the shards are good *)
Theorem safe_results progs s tr : reach code pref (start ts progs) s tr ->
  (forall id r, In (ERes id r) tr -> exists o, In (EInv id o) tr /\ Q o r) /\ (forall i, step s i <> Some UB) /\
  (idle s -> forall m t, st_shards s !! m = Some t -> good m t).
Proof using Hcode Hlen Hgood.
  intros H. destruct (reach_ok _ _ _ H) as [ph Hok]. split; [apply (o_res _ _ _ Hok)|]. split.
  - intros i Hi. destruct (step_ok _ _ _ _ _ Hok Hi) as (? & ? & ? & E & _). discriminate.
  - intros Hid m t Ht. pose proof (lookup_lt_Some _ _ _ Ht) as Hm. rewrite (o_lens _ _ _ Hok), <- (o_lenl _ _ _ Hok) in Hm.
    destruct (lookup_lt_is_Some_2 _ _ Hm) as [l Hl]. eapply (o_stable _ _ _ Hok); [exact Hl| |exact Ht].
    destruct (lw l) as [i|] eqn:Hw; [|reflexivity]. apply (o_locks _ _ _ Hok m l Hl) in Hw. exfalso.
    pose proof (lookup_lt_Some _ _ _ Hw) as Hi. rewrite (o_len _ _ _ Hok) in Hi. destruct (lookup_lt_is_Some_2 _ _ Hi) as [th Hth].
    destruct (o_threads _ _ _ Hok _ _ _ Hth Hw) as (o & c & ? & ? & ? & E & _). rewrite (Forall_lookup_1 _ _ _ _ Hid Hth) in E. discriminate.
Qed.
Theorem safe_no_race progs s tr : reach code pref (start ts progs) s tr -> ~ race s.
Proof using Hcode Hlen Hgood.
  intros H (i & j & m & w & Hij & Hi & Hj). destruct (reach_ok _ _ _ H) as [ph Hok].
  assert (Hin : forall i w, accesses s i m w -> exists d, ph !! i = Some (PIn m d) /\ (w = true -> d = Excl) /\ m < n).
  { clear - Hok. intros i w (th & o & c & Hi & Hc & Hcase). pose proof (lookup_lt_Some _ _ _ Hi) as Hlt. rewrite <- (o_len _ _ _ Hok) in Hlt.
    destruct (lookup_lt_is_Some_2 _ _ Hlt) as [p Hp]. pose proof (o_threads _ _ _ Hok _ _ _ Hi Hp) as T4. destruct p as [| |m0 d].
    - cbn in T4. congruence.
    - destruct T4 as (o' & c' & E & Hs & _). rewrite Hc in E. injection E as <- <-. destruct Hcase as [(? & ? & -> & _)|(? & -> & _)]; inversion Hs.
    - destruct T4 as (o' & c' & t & t' & c'' & E & _ & Hsh & Hrun & _). rewrite Hc in E. injection E as <- <-. pose proof (lookup_lt_Some _ _ _ Hsh) as Hm. rewrite (o_lens _ _ _ Hok) in Hm.
      destruct Hcase as [(g & k & -> & ->)|(k & -> & ->)]; cbn [sec] in Hrun.
      + destruct d; [|discriminate]. destruct (Nat.eqb_spec m0 m) as [->|]; [|discriminate]. eauto.
      + destruct (Nat.eqb_spec m0 m) as [->|]; [|discriminate]. exists d. split; [assumption|]. split; [discriminate|assumption]. }
  destruct (Hin i true Hi) as (d & Hpi & Hd & Hm). rewrite (Hd eq_refl) in Hpi. destruct (Hin j w Hj) as (d' & Hpj & _).
  rewrite <- (o_lenl _ _ _ Hok) in Hm. destruct (lookup_lt_is_Some_2 _ _ Hm) as [l Hl].
  destruct (o_locks _ _ _ Hok m l Hl) as (A1 & A2 & A3 & A4). apply A1 in Hpi. destruct d'.
  - apply A1 in Hpj. congruence.
  - apply A2 in Hpj. rewrite A4 in Hpj by congruence. destruct Hpj.
Qed.
Lemma in_steps s tr ph i m d : ok s tr ph -> ph !! i = Some (PIn m d) -> step s i <> None.
Proof using.
  intros HI Hp. pose proof (lookup_lt_Some _ _ _ Hp) as Hlt. rewrite (o_len _ _ _ HI) in Hlt.
  destruct (lookup_lt_is_Some_2 _ _ Hlt) as [th Hi].
  destruct (o_threads _ _ _ HI _ _ _ Hi Hp) as (o & c & t & t' & c' & E & _ & Hs & Hrun & _).
  unfold Conc.step. rewrite Hi, E. destruct c; cbn in Hrun; try discriminate.
  - destruct (st_locks s !! m0); [|discriminate]. destruct (release _ _ _); discriminate.
  - destruct (m =? m0) eqn:Em; [|discriminate]. apply Nat.eqb_eq in Em. subst. rewrite Hs. discriminate.
  - destruct d; [|discriminate]. destruct (m =? m0) eqn:Em; [|discriminate]. apply Nat.eqb_eq in Em. subst. rewrite Hs. discriminate.
Qed.
Theorem safe_progress progs s tr : reach code pref (start ts progs) s tr -> ~ finished s -> exists i s' ev, step s i = Some (Ok (s', ev)).
Proof using Hcode Hlen Hgood.
  intros H Hnf. destruct (reach_ok _ _ _ H) as [ph HI].
  assert (Hen : exists i, step s i <> None).
  { assert (exists i th, st_threads s !! i = Some th /\ (th_cur th <> None \/ th_todo th <> [])) as (i & th & Hi & Hth).
    { apply unfinished. exact Hnf. }
    destruct (step s i) eqn:Hs; [exists i; congruence|].
    unfold Conc.step in Hs. rewrite Hi in Hs. destruct (th_cur th) as [[o c]|] eqn:Hc.
    2:{ destruct (th_todo th); [destruct Hth as [Hx|Hx]; congruence|discriminate]. }
    destruct c as [r0|m d k|m d k|m k|m g k|]; try discriminate.
    - destruct (st_locks s !! m) as [l|] eqn:Hl; [|discriminate]. destruct (owns l i); [discriminate|].
      destruct (free_for pref s m l d) eqn:Hf; [discriminate|].
      destruct (o_locks _ _ _ HI m l Hl) as (A1 & A2 & A3 & A4).
      unfold free_for in Hf. destruct (lw l) as [j|] eqn:Hlw.
      + exists j. eapply in_steps; [exact HI|]. apply A1. reflexivity.
      + destruct (lr l) as [|j lr'] eqn:Hlr.
        * destruct d; [discriminate|]. apply negb_false_iff, andb_true_iff in Hf. destruct Hf as [_ Hf].
          apply existsb_exists in Hf. destruct Hf as (th' & Hin & Hw). apply elem_of_list_In, elem_of_list_lookup in Hin. destruct Hin as [j Hj].
          exists j. unfold Conc.step. rewrite Hj. unfold wants_write in Hw.
          destruct (th_cur th') as [[o' c']|]; [|discriminate]. destruct c' as [|m' d' k'| | | |]; try discriminate. destruct d'; [|discriminate].
          apply Nat.eqb_eq in Hw. subst m'. rewrite Hl. destruct (owns l j); [discriminate|].
          unfold free_for. rewrite Hlw, Hlr. discriminate.
        * exists j. eapply in_steps; [exact HI|]. apply A2. left. reflexivity.
    - destruct (st_locks s !! m) as [l|]; [|discriminate]. destruct (release l i d); discriminate.
    - destruct (st_shards s !! m); discriminate.
    - destruct (st_shards s !! m); discriminate. }
  destruct Hen as [i Hen]. destruct (step s i) as [r|] eqn:Hs; [|contradiction].
  destruct (step_ok _ _ _ _ _ HI Hs) as (s' & ev & ? & -> & _). eauto.
Qed.
End ConcSafe.
