(** Calls made of critical sections on one shard are linearizable, never block each other for ever, and never race. *)
From stdpp Require Import list sets.
From Coq Require Import Arith Lia.
From Verif.Common Require Import Res.
From Verif.Par Require Import Conc.
Local Open Scope nat_scope.

Section ConcProof.
Context {T O R : Type} (code : O -> cmd T R) (pref : bool).
Context (shard : O -> nat) (spec : O -> T -> R -> T -> Prop) (good : nat -> T -> Prop).
Notation cmd := (cmd T R).
Notation thread := (thread T O R).
Notation state := (state T O R).
Notation event := (event O R).
Notation entry := (entry O R).
Notation section_ok := (section_ok shard spec good).
Notation inv := (inv shard spec good).
Notation thread_inv := (thread_inv shard spec good).
Notation step := (step code pref).

(** ** linearizations grow *)
Lemma precedes_app (L : list entry) x a b : precedes L a b -> precedes (L ++ [x]) a b.
Proof.
  intros (i & j & y & z & Hij & Hi & Hj & Ha & Hb). exists i, j, y, z.
  split; [assumption|]. split; [apply lookup_app_l_Some; assumption|]. split; [apply lookup_app_l_Some; assumption|auto].
Qed.
Lemma returned_snoc (tr : list event) e a b : returned_before (tr ++ [e]) a b ->
  returned_before tr a b \/ (exists o, e = EInv b o /\ exists r, In (ERes a r) tr).
Proof.
  intros (tr1 & tr2 & r & o & Heq & Hin). destruct tr2 as [|e' tr2 _] using rev_ind; [destruct Hin|].
  rewrite app_comm_cons, app_assoc in Heq. apply app_inj_tail in Heq. destruct Heq as [-> ->].
  apply in_app_or in Hin. destruct Hin as [Hin|[->|[]]].
  - left. exists tr1, tr2, r, o. auto.
  - right. exists o. split; [reflexivity|]. exists r. apply in_or_app. right. left. reflexivity.
Qed.
Lemma in_ids (L : list entry) id o r : In (id, o, r) L -> In id (map e_id L).
Proof. intros H. apply (in_map e_id) in H. exact H. Qed.
Lemma lin_nil (L : list entry) : L = [] -> linearization [] L.
Proof.
  intros ->. constructor.
  - constructor.
  - intros ? ? [].
  - intros ? ? ? [].
  - intros ? ? ? ? [].
  - intros a b (tr1 & tr2 & r & o & H & _). destruct tr1; discriminate.
Qed.
Lemma lin_inv tr (L : list entry) id o : linearization tr L -> ~ In id (map e_id L) -> linearization (tr ++ [EInv id o]) L.
Proof.
  intros [H1 H2 H3 H4 H5] Hid. constructor.
  - assumption.
  - intros id' r Hin. apply in_app_or in Hin. destruct Hin as [Hin|[Hin|[]]]; [eauto|discriminate].
  - intros id' o' r Hin. apply in_or_app. left. eauto.
  - intros id' o' r r' Hin Hr. apply in_app_or in Hr. destruct Hr as [Hr|[Hr|[]]]; [eauto|discriminate].
  - intros a b Hb Hin. apply returned_snoc in Hb. destruct Hb as [Hb|(o' & [= <- <-] & _)]; [eauto|contradiction].
Qed.
Lemma map_lookup (L : list entry) i x : L !! i = Some x -> map e_id L !! i = Some (e_id x).
Proof.
  revert i. induction L as [|y L IH]; intros [|i] H; cbn in H |- *; try discriminate; [congruence|auto].
Qed.
Lemma id_unique (L : list entry) id o r o' r' : NoDup (map e_id L) -> In (id, o, r) L -> In (id, o', r') L -> o = o' /\ r = r'.
Proof.
  intros HN H1 H2. apply elem_of_list_In, elem_of_list_lookup in H1. apply elem_of_list_In, elem_of_list_lookup in H2.
  destruct H1 as [i Hi], H2 as [j Hj].
  assert (i = j); [|subst; rewrite Hi in Hj; injection Hj; auto].
  rewrite NoDup_alt in HN. apply (HN i j id); [exact (map_lookup L i _ Hi)|exact (map_lookup L j _ Hj)].
Qed.
Lemma lin_res tr (L : list entry) id o r : linearization tr L -> In (id, o, r) L ->
  linearization (tr ++ [ERes id r]) L.
Proof.
  intros [H1 H2 H3 H4 H5] Hid. constructor.
  - assumption.
  - intros id' r' Hin. apply in_app_or in Hin. destruct Hin as [Hin|[[= <- <-]|[]]]; eauto.
  - intros id' o' r' Hin. apply in_or_app. left. eauto.
  - intros id' o' r0 r' Hin Hr. apply in_app_or in Hr. destruct Hr as [Hr|[[= <- <-]|[]]]; [eauto|].
    destruct (id_unique L _ _ _ _ _ H1 Hid Hin) as [_ ->]. reflexivity.
  - intros a b Hb Hin. apply returned_snoc in Hb. destruct Hb as [Hb|(o' & [=] & _)]. eauto.
Qed.
Lemma lin_take tr (L : list entry) id o r : linearization tr L -> ~ In id (map e_id L) -> In (EInv id o) tr ->
  (forall r', ~ In (ERes id r') tr) -> linearization tr (L ++ [(id, o, r)]).
Proof.
  intros [H1 H2 H3 H4 H5] Hid Hi Hr. constructor.
  - rewrite map_app. apply NoDup_app. split; [assumption|]. split; [|].
    + intros x Hx Hx'. apply elem_of_list_singleton in Hx'. subst. apply Hid. apply elem_of_list_In. assumption.
    + cbn. constructor; [apply not_elem_of_nil|constructor].
  - intros id' r' Hin. destruct (H2 _ _ Hin) as [o' Ho]. exists o'. apply in_or_app. auto.
  - intros id' o' r' Hin. apply in_app_or in Hin. destruct Hin as [Hin|[[= <- <- <-]|[]]]; eauto.
  - intros id' o' r0 r' Hin Hr'. apply in_app_or in Hin. destruct Hin as [Hin|[[= <- <- <-]|[]]]; [eauto|]. destruct (Hr _ Hr').
  - intros a b Hb Hin. rewrite map_app in Hin. apply in_app_or in Hin. destruct Hin as [Hin|[<-|[]]].
    + apply precedes_app. eauto.
    + destruct Hb as (tr1 & tr2 & ra & ob & -> & Hin2).
      destruct (H2 a ra) as [oa Ha]; [apply in_or_app; right; left; reflexivity|].
      apply elem_of_list_In, elem_of_list_lookup in Ha. destruct Ha as [i Hl]. pose proof (lookup_lt_Some _ _ _ Hl) as Hlt.
      exists i, (length L), (a, oa, ra), (id, o, r). split; [assumption|]. split; [apply lookup_app_l_Some; assumption|].
      split; [rewrite lookup_app_r, Nat.sub_diag by lia; reflexivity|auto].
Qed.

(** ** what a step of another thread leaves alone *)
Lemma ti_frame (s s' : state) vs vs' (L L' : list entry) tr tr' j th p :
  thread_inv s vs L tr j th p ->
  (forall n o r, In ((j, n), o, r) L' -> In ((j, n), o, r) L) -> (forall e, In e L -> In e L') ->
  (forall n r, In (ERes (j, n) r) tr' -> In (ERes (j, n) r) tr) ->
  (forall n o, In (EInv (j, n) o) tr' -> In (EInv (j, n) o) tr) -> (forall e, In e tr -> In e tr') ->
  (forall m d, p = PIn m d -> st_shards s' !! m = st_shards s !! m /\ vs' !! m = vs !! m) ->
  thread_inv s' vs' L' tr' j th p.
Proof.
  intros (H1 & H2 & H3 & H4) HL HL' HR HI Htr Hm.
  assert (Hn : forall n, ~ In (j, n) (map e_id L) -> ~ In (j, n) (map e_id L')).
  { intros n Hn Hin. apply in_map_iff in Hin. destruct Hin as ([[id o] r] & Hid & Hin). cbn in Hid. subst id. apply Hn. eapply in_ids. eauto. }
  split; [|split; [|split]]; eauto.
  destruct p as [| |m d|].
  - assumption.
  - destruct H4 as (o & d & c & E1 & E2 & E3 & E4). exists o, d, c. split; [assumption|]. split; [assumption|]. split; [auto|]. apply Hn. assumption.
  - destruct (Hm m d eq_refl) as [Ha Hb]. destruct H4 as (o & c & t & t' & c' & E1 & E2 & E3 & E4 & E5 & E6 & E7).
    exists o, c, t, t', c'. rewrite Ha, Hb. repeat (split; [solve [eauto]|]). destruct E7 as [(r & Er & Hr)|(Hl & Hw)]; [left; eauto|right; split; [apply Hn; assumption|assumption]].
  - destruct H4 as (o & r & E1 & E2). eauto.
Qed.

Lemma seqrun_len (s0s : list T) L vs : seqrun shard spec s0s L vs -> length vs = length s0s.
Proof. induction 1; [reflexivity|]. rewrite insert_length. assumption. Qed.
Lemma sec_shared m (c : cmd) : forall t t' c', sec m Shared c t = Some (t', c') -> t' = t.
Proof.
  induction c as [r|m' d k IH|m' d k IH|m' k IH|m' g k IH|]; intros t t' c' H; cbn in H; try discriminate.
  - destruct ((m =? m') && bool_decide (Shared = d)); congruence.
  - destruct (m =? m'); [|discriminate]. eapply IH. exact H.
Qed.
Lemma existsb_in i l : existsb (Nat.eqb i) l = true <-> In i l.
Proof.
  rewrite existsb_exists. split; [intros (x & Hx & E); apply Nat.eqb_eq in E; subst; assumption|].
  intros H. exists i. split; [assumption|apply Nat.eqb_refl].
Qed.
Lemma remove_nat_in i x l : NoDup l -> In x (remove_nat i l) <-> In x l /\ x <> i.
Proof.
  induction 1 as [|y l Hy HN IH]; cbn; [tauto|]. destruct (Nat.eqb_spec i y) as [->|Hne].
  - split; [|intros [[<-|H] H']; [congruence|assumption]]. intros Hx. split; [auto|]. intros ->. apply Hy, elem_of_list_In. assumption.
  - cbn. rewrite IH. split; [intros [<-|[H H']]; auto|]. intros [[<-|H] H']; auto.
Qed.
Lemma remove_nat_nodup i l : NoDup l -> NoDup (remove_nat i l).
Proof.
  induction 1 as [|y l Hy HN IH]; cbn; [constructor|]. destruct (i =? y); [assumption|]. constructor; [|assumption].
  rewrite elem_of_list_In, remove_nat_in by assumption. rewrite <- elem_of_list_In. tauto.
Qed.

Context (Hcode : forall o, call_ok code shard spec good o).

Lemma lookup_ins {A} (l : list A) i j x : i < length l -> <[i := x]> l !! j = if decide (i = j) then Some x else l !! j.
Proof. intros H. destruct (decide (i = j)) as [->|Hn]; [apply list_lookup_insert; assumption|apply list_lookup_insert_ne; assumption]. Qed.

Ltac frame Hth := eapply ti_frame; [eapply Hth; eassumption|..]; try solve [auto];
  try solve [intros ? ? _; split; reflexivity];
  try solve [intros; match goal with H : In _ (_ ++ [_]) |- _ => apply in_app_or in H; destruct H as [?|[?|[]]]; [assumption|congruence] end];
  try solve [intros; apply in_or_app; auto].

Lemma step_inv (s0s : list T) (s : state) vs L tr ph i r : (forall o, shard o < length s0s) ->
  inv s0s s vs L tr ph -> step s i = Some r ->
  exists s' ev vs' L' ph', r = Ok (s', ev) /\ inv s0s s' vs' L' (tr ++ ev) ph' /\ length (st_threads s') = length (st_threads s).
Proof.
  intros Hsh HI Hstep. pose proof HI as [Hlen Hlens Hlenl Hgood Hseq Hlin Hth Hids Hevs Hlocks Hstable].
  pose proof (seqrun_len _ _ _ Hseq) as Hls.
  unfold Conc.step in Hstep. destruct (st_threads s !! i) as [th|] eqn:Hi; [|discriminate].
  pose proof (lookup_lt_Some _ _ _ Hi) as Hlt.
  destruct (ph !! i) as [p|] eqn:Hp; [|apply lookup_ge_None in Hp; lia].
  pose proof (Hth i th p Hi Hp) as (T1 & T2 & T3 & T4).
  destruct (th_cur th) as [[o c]|] eqn:Hcur.
  2:{ (* invocation *)
    destruct (th_todo th) as [|o os] eqn:Hto; [discriminate|]. injection Hstep as <-.
    assert (p = PIdle) as ->.
    { destruct p; [reflexivity|destruct T4 as (? & ? & ? & ? & _)|destruct T4 as (? & ? & ? & ? & ? & ? & _)|destruct T4 as (? & ? & ? & _)]; congruence. }
    assert (Hfresh : ~ In (i, th_n th) (map e_id L)).
    { intros Hin. apply in_map_iff in Hin. destruct Hin as ([[id o'] r'] & Hid & Hin). cbn in Hid. subst id.
      destruct (T1 _ _ _ Hin) as [?|(_ & o1 & c1 & ?)]; [lia|congruence]. }
    destruct (Hcode o) as (d & c & Hco & Hsec).
    eexists _, _, vs, L, (<[i := PWait]> ph). split; [reflexivity|]. split; [|cbn; apply insert_length].
    constructor; cbn [set_thread st_threads st_shards st_locks]; try assumption.
    - rewrite !insert_length. assumption.
    - apply lin_inv; assumption.
    - intros j th' p' Hj Hpj. rewrite lookup_ins in Hj by assumption. rewrite lookup_ins in Hpj by lia.
      destruct (decide (i = j)) as [<-|Hne].
      + injection Hj as <-. injection Hpj as <-. split; [|split; [|split]]; cbn.
        * intros n o' r' Hin. destruct (T1 _ _ _ Hin) as [?|(_ & o1 & c1 & ?)]; [auto|congruence].
        * intros n r' Hin. apply in_app_or in Hin. destruct Hin as [Hin|[Hin|[]]]; [eauto|discriminate].
        * intros n o' Hin. apply in_app_or in Hin. destruct Hin as [Hin|[[= <- <-]|[]]]; [|right; eauto].
          destruct (T3 _ _ Hin) as [?|(_ & c1 & ?)]; [auto|congruence].
        * exists o, d, c. rewrite Hco. split; [reflexivity|]. split; [assumption|]. split; [|assumption]. apply in_or_app. right. left. reflexivity.
      + frame Hth.
    - intros j n o' r'. rewrite insert_length. eauto.
    - intros j n [[o' Hin]|[r' Hin]]; rewrite insert_length; apply in_app_or in Hin; destruct Hin as [Hin|[Hin|[]]]; try discriminate; [eauto|congruence|eauto].
    - intros m l Hl. destruct (Hlocks m l Hl) as (A1 & A2 & A3 & A4). split; [|split; [|auto]].
      + intros j. rewrite A1, lookup_ins by lia. destruct (decide (i = j)) as [<-|]; [|reflexivity]. rewrite Hp. split; discriminate.
      + intros j. rewrite A2, lookup_ins by lia. destruct (decide (i = j)) as [<-|]; [|reflexivity]. rewrite Hp. split; discriminate. }
  destruct c as [r0|m d k|m d k|m k|m g k|].
  - (* return *)
    injection Hstep as <-.
    assert (p = PDone) as ->.
    { destruct p; [congruence|destruct T4 as (? & ? & ? & E & _); congruence| |reflexivity].
      destruct T4 as (? & ? & ? & ? & ? & E & _ & _ & _ & _ & E2 & _). injection E as <- <-. discriminate. }
    destruct T4 as (o' & r' & E & HinL). injection E as <- <-.
    eexists _, _, vs, L, (<[i := PIdle]> ph). split; [reflexivity|]. split; [|cbn; apply insert_length].
    constructor; cbn [set_thread st_threads st_shards st_locks]; try assumption.
    + rewrite !insert_length. assumption.
    + eapply lin_res; eassumption.
    + intros j th' p' Hj Hpj. rewrite lookup_ins in Hj by assumption. rewrite lookup_ins in Hpj by lia.
      destruct (decide (i = j)) as [<-|Hne].
      * injection Hj as <-. injection Hpj as <-. split; [|split; [|split]]; cbn.
        -- intros n o' r' Hin. destruct (T1 _ _ _ Hin) as [?|(? & _)]; left; lia.
        -- intros n r' Hin. apply in_app_or in Hin. destruct Hin as [Hin|[[= <- <-]|[]]]; [apply T2 in Hin|]; lia.
        -- intros n o' Hin. apply in_app_or in Hin. destruct Hin as [Hin|[Hin|[]]]; [|discriminate].
           destruct (T3 _ _ Hin) as [?|(? & _)]; left; lia.
        -- reflexivity.
      * frame Hth.
    + intros j n o' r'. rewrite insert_length. eauto.
    + intros j n [[o' Hin]|[r' Hin]]; rewrite insert_length; apply in_app_or in Hin; destruct Hin as [Hin|[Hin|[]]]; try discriminate; [eauto|eauto|congruence].
    + intros m l Hl. destruct (Hlocks m l Hl) as (A1 & A2 & A3 & A4). split; [|split; [|auto]].
      * intros j. rewrite A1, lookup_ins by lia. destruct (decide (i = j)) as [<-|]; [|reflexivity]. rewrite Hp. split; discriminate.
      * intros j. rewrite A2, lookup_ins by lia. destruct (decide (i = j)) as [<-|]; [|reflexivity]. rewrite Hp. split; discriminate.
  - (* lock *)
    assert (p = PWait) as ->.
    { destruct p; [congruence|reflexivity| |destruct T4 as (? & ? & E & _); congruence].
      destruct T4 as (? & ? & ? & ? & ? & E & _ & _ & _ & _ & E2 & _). injection E as <- <-. discriminate. }
    destruct T4 as (o' & d' & c' & E & Hsec & Hinv & HnL). injection E as <- -> <- <-.
    set (m := shard o) in *. pose proof (Hsh o) as Hm. fold m in Hm.
    destruct (st_locks s !! m) as [l|] eqn:Hl; [|apply lookup_ge_None in Hl; lia].
    destruct (Hlocks m l Hl) as (A1 & A2 & A3 & A4).
    assert (Hown : owns l i = false).
    { unfold owns. destruct (lw l) as [j|] eqn:Hlw.
      - apply Nat.eqb_neq. intros <-. pose proof (proj1 (A1 i) eq_refl). congruence.
      - apply not_true_iff_false. rewrite existsb_in. intros Hin. apply A2 in Hin. congruence. }
    rewrite Hown in Hstep. destruct (free_for pref s m l d) eqn:Hfree; [|discriminate]. injection Hstep as <-.
    assert (Hlw : lw l = None) by (unfold free_for in Hfree; destruct (lw l); [destruct d; discriminate|reflexivity]).
    assert (Hlr : d = Excl -> lr l = []) by (intros ->; unfold free_for in Hfree; rewrite Hlw in Hfree; destruct (lr l); [reflexivity|discriminate]).
    pose proof (Hstable m l Hl Hlw) as Hst.
    destruct (vs !! m) as [t|] eqn:Hv; [|apply lookup_ge_None in Hv; lia].
    destruct Hsec as [Hsec]. destruct (Hsec t (Hgood m t Hv)) as (t' & c' & Hrun & Hcase). fold m in Hrun, Hcase.
    assert (Hnores : forall r', ~ In (ERes (i, th_n th) r') tr) by (intros r' Hin; apply T2 in Hin; lia).
    set (s' := set_lock (set_thread s i (go th o k)) m (acquire l i d)).
    assert (Hlk : forall m' l', st_locks s' !! m' = Some l' ->
       (forall j, lw l' = Some j <-> <[i := PIn m d]> ph !! j = Some (PIn m' Excl)) /\
       (forall j, In j (lr l') <-> <[i := PIn m d]> ph !! j = Some (PIn m' Shared)) /\ NoDup (lr l') /\ (lw l' <> None -> lr l' = [])).
    { intros m' l' Hl'. cbn in Hl'. rewrite lookup_ins in Hl' by (rewrite Hlenl; lia). destruct (decide (m = m')) as [<-|Hne].
      - injection Hl' as <-. destruct d; cbn.
        + rewrite Hlr by reflexivity. split; [|split; [|split; [constructor|auto]]]; intros j; rewrite lookup_ins by lia; destruct (decide (i = j)) as [<-|Hne].
          * split; reflexivity.
          * rewrite <- A1, Hlw. split; congruence.
          * split; [intros []|discriminate].
          * rewrite <- A2, Hlr by reflexivity. reflexivity.
        + split; [|split; [|split; [|congruence]]].
          * intros j; rewrite lookup_ins by lia; destruct (decide (i = j)) as [<-|Hne]; [rewrite Hlw; split; discriminate|apply A1].
          * intros j; rewrite lookup_ins by lia; destruct (decide (i = j)) as [<-|Hne]; [split; auto|]. rewrite <- A2. split; [intros [?|?]; [congruence|assumption]|auto].
          * constructor; [|assumption]. rewrite elem_of_list_In, A2, Hp. discriminate.
      - destruct (Hlocks m' l' Hl') as (B1 & B2 & B3 & B4). split; [|split; [|auto]]; intros j; rewrite lookup_ins by lia;
          [rewrite B1|rewrite B2]; (destruct (decide (i = j)) as [<-|]; [rewrite Hp; split; [discriminate|congruence]|reflexivity]). }
    (* the shard of other threads in a section on m *)
    assert (Hother : forall j d0, j <> i -> ph !! j = Some (PIn m d0) -> d = Shared).
    { intros j d0 Hne Hj. destruct d; [|reflexivity]. exfalso. destruct d0.
      - apply A1 in Hj. congruence.
      - apply A2 in Hj. rewrite Hlr in Hj by reflexivity. destruct Hj. }
    destruct Hcase as [(r0 & -> & Hspec & Hg' & Hsame)|(-> & d' & c'' & -> & Hsec'')].
    + (* takes effect here *)
      eexists s', [], (<[m := t']> vs), (L ++ [((i, th_n th), o, r0)]), (<[i := PIn m d]> ph). split; [reflexivity|].
      rewrite app_nil_r. split; [|cbn; apply insert_length].
      constructor; try assumption.
      * cbn. rewrite !insert_length. assumption.
      * cbn. rewrite insert_length. assumption.
      * cbn. rewrite !insert_length. assumption.
      * intros m' t0. rewrite lookup_ins by lia. destruct (decide (m = m')) as [<-|]; [intros [= <-]; assumption|apply Hgood].
      * eapply seq_snoc; [eassumption|exact Hv|assumption].
      * apply lin_take; assumption.
      * intros j th' p' Hj Hpj. cbn in Hj. rewrite lookup_ins in Hj by assumption. rewrite lookup_ins in Hpj by lia.
        destruct (decide (i = j)) as [<-|Hne].
        -- injection Hj as <-. injection Hpj as <-. split; [|split; [|split]]; cbn.
           ++ intros n o' r' Hin. apply in_app_or in Hin. destruct Hin as [Hin|[[= <- <- <-]|[]]]; [|right; eauto].
              destruct (T1 _ _ _ Hin) as [?|(? & _)]; [left; assumption|right; eauto].
           ++ assumption.
           ++ intros n o' Hin. destruct (T3 _ _ Hin) as [?|(? & c1 & E1)]; [auto|]. injection E1 as <- <-. right. eauto.
           ++ exists o, k, t, t', (CDone r0). split; [reflexivity|]. split; [reflexivity|]. split; [assumption|]. split; [congruence|].
              split; [apply list_lookup_insert; lia|]. split; [assumption|]. left. exists r0. split; [reflexivity|]. apply in_or_app. right. left. reflexivity.
        -- frame Hth. intros m' d0 ->. split; [reflexivity|]. rewrite lookup_ins by lia. destruct (decide (m = m')) as [<-|]; [|reflexivity].
           rewrite (Hsame (Hother j d0 ltac:(congruence) Hpj)). symmetry. assumption.
      * intros j n o' r' Hin. cbn. rewrite insert_length. apply in_app_or in Hin. destruct Hin as [Hin|[[= <- <- <- <-]|[]]]; [eauto|assumption].
      * intros j n Hin. cbn. rewrite insert_length. eauto.
      * intros m' l' Hl' Hlw'. cbn in Hl' |- *. rewrite lookup_ins in Hl' by (rewrite Hlenl; lia). rewrite lookup_ins by lia. destruct (decide (m = m')) as [<-|Hne].
        -- injection Hl' as <-. destruct d; [discriminate|]. rewrite Hsame by reflexivity. assumption.
        -- eauto.
    + (* a section that does nothing; another one follows *)
      eexists s', [], vs, L, (<[i := PIn m d]> ph). split; [reflexivity|].
      rewrite app_nil_r. split; [|cbn; apply insert_length].
      constructor; try assumption.
      * cbn. rewrite !insert_length. assumption.
      * cbn. rewrite insert_length. assumption.
      * intros j th' p' Hj Hpj. cbn in Hj. rewrite lookup_ins in Hj by assumption. rewrite lookup_ins in Hpj by lia.
        destruct (decide (i = j)) as [<-|Hne].
        -- injection Hj as <-. injection Hpj as <-. split; [|split; [|split]]; cbn.
           ++ intros n o' r' Hin. destruct (T1 _ _ _ Hin) as [?|(? & _)]; [left; assumption|right; eauto].
           ++ assumption.
           ++ intros n o' Hin. destruct (T3 _ _ Hin) as [?|(? & c1 & E1)]; [auto|]. injection E1 as <- <-. right. eauto.
           ++ exists o, k, t, t, (CLock m d' c''). split; [reflexivity|]. split; [reflexivity|]. split; [assumption|]. split; [congruence|].
              split; [assumption|]. split; [assumption|]. right. eauto.
        -- frame Hth.
      * intros j n o' r' Hin. cbn. rewrite insert_length. eauto.
      * intros j n Hin. cbn. rewrite insert_length. eauto.
      * intros m' l' Hl' Hlw'. cbn in Hl' |- *. rewrite lookup_ins in Hl' by (rewrite Hlenl; lia). destruct (decide (m = m')) as [<-|Hne].
        -- rewrite Hv. assumption.
        -- eauto.
  - (* unlock *)
    assert (exists m0 d0, p = PIn m0 d0) as (m0 & d0 & ->).
    { destruct p; [congruence|destruct T4 as (? & ? & ? & E & _); congruence|eauto|destruct T4 as (? & ? & E & _); congruence]. }
    destruct T4 as (o' & c' & t & t' & c'' & E & Em & Hinv & Hs & Hv & Hrun & Hcase). injection E as <- <-.
    cbn [Conc.sec] in Hrun. destruct (Nat.eqb_spec m0 m) as [->|]; [|discriminate]. destruct (decide (d0 = d)) as [->|Hd]; [|rewrite bool_decide_eq_false_2 in Hrun by assumption; discriminate].
    rewrite bool_decide_eq_true_2 in Hrun by reflexivity. cbn in Hrun. injection Hrun as <- <-.
    pose proof (lookup_lt_Some _ _ _ Hv) as Hm.
    destruct (st_locks s !! m) as [l|] eqn:Hl; [|apply lookup_ge_None in Hl; lia].
    destruct (Hlocks m l Hl) as (A1 & A2 & A3 & A4).
    assert (exists l', release l i d = Some l') as [l' Hrel].
    { unfold release. destruct d.
      - rewrite (proj2 (A1 i) Hp), Nat.eqb_refl. eauto.
      - rewrite (proj2 (existsb_in i (lr l))) by (apply A2; assumption). eauto. }
    rewrite Hrel in Hstep. injection Hstep as <-.
    set (s' := set_lock (set_thread s i (go th o k)) m l').
    assert (Hgen : forall p', (forall m' d', p' <> PIn m' d') ->
      (match p' with
       | PIdle => False
       | PWait => exists d' c'', k = CLock (shard o) d' c'' /\ section_ok o d' c'' /\ ~ In (i, th_n th) (map e_id L)
       | PIn _ _ => False
       | PDone => exists r, k = CDone r /\ In ((i, th_n th), o, r) L
       end) -> inv s0s s' vs L tr (<[i := p']> ph)).
    { intros p' Hp' Hk. constructor; try assumption.
      - cbn. rewrite !insert_length. assumption.
      - cbn. rewrite insert_length. assumption.
      - intros j th' pj Hj Hpj. cbn in Hj. rewrite lookup_ins in Hj by assumption. rewrite lookup_ins in Hpj by lia.
        destruct (decide (i = j)) as [<-|Hne].
        + injection Hj as <-. injection Hpj as <-. split; [|split; [|split]]; cbn.
          * intros n o' r' Hin. destruct (T1 _ _ _ Hin) as [?|(? & _)]; [left; assumption|right; eauto].
          * assumption.
          * intros n o' Hin. destruct (T3 _ _ Hin) as [?|(? & c1 & E1)]; [auto|]. injection E1 as <- <-. right. eauto.
          * destruct p'; [contradiction| |contradiction|].
            -- destruct Hk as (d' & c'' & -> & H1 & H2). exists o, d', c''. auto.
            -- destruct Hk as (r' & -> & H1). exists o, r'. auto.
        + frame Hth.
      - intros j n o' r' Hin. cbn. rewrite insert_length. eauto.
      - intros j n Hin. cbn. rewrite insert_length. eauto.
      - intros m' l2 Hl2. cbn in Hl2. rewrite lookup_ins in Hl2 by (rewrite Hlenl; lia). destruct (decide (m = m')) as [<-|Hne].
        + injection Hl2 as <-. unfold release in Hrel. destruct d.
          * rewrite (proj2 (A1 i) Hp), Nat.eqb_refl in Hrel. injection Hrel as <-. cbn.
            assert (Hlr : lr l = []) by (apply A4; rewrite (proj2 (A1 i) Hp); discriminate).
            rewrite Hlr. split; [|split; [|split; [constructor|auto]]]; intros j; rewrite lookup_ins by lia; destruct (decide (i = j)) as [<-|Hne].
            -- split; [discriminate|]. intros E1. injection E1 as ->. exfalso. eapply Hp'. reflexivity.
            -- rewrite <- A1, (proj2 (A1 i) Hp). split; congruence.
            -- split; [intros []|]. intros E1. injection E1 as ->. exfalso. eapply Hp'. reflexivity.
            -- rewrite <- A2, Hlr. reflexivity.
          * rewrite (proj2 (existsb_in i (lr l))) in Hrel by (apply A2; assumption). injection Hrel as <-. cbn.
            assert (Hlw : lw l = None). { destruct (lw l) eqn:Hlw; [|reflexivity]. assert (Hi2 : In i (lr l)) by (apply A2; assumption). rewrite A4 in Hi2 by discriminate. destruct Hi2. }
            split; [|split; [|split; [apply remove_nat_nodup; assumption|intros; congruence]]]; intros j; rewrite lookup_ins by lia; destruct (decide (i = j)) as [<-|Hne].
            -- rewrite Hlw. split; [discriminate|]. intros E1. injection E1 as ->. exfalso. eapply Hp'. reflexivity.
            -- apply A1.
            -- rewrite remove_nat_in by assumption. split; [tauto|]. intros E1. injection E1 as ->. exfalso. eapply Hp'. reflexivity.
            -- rewrite remove_nat_in, A2 by assumption. split; [tauto|]. intros; split; [assumption|congruence].
        + destruct (Hlocks m' l2 Hl2) as (B1 & B2 & B3 & B4). split; [|split; [|auto]]; intros j; rewrite lookup_ins by lia;
          [rewrite B1|rewrite B2]; (destruct (decide (i = j)) as [<-|]; [rewrite Hp; split; [congruence|intros E1; injection E1 as ->; exfalso; eapply Hp'; reflexivity]|reflexivity]).
      - intros m' l2 Hl2 Hlw2. cbn in Hl2 |- *. rewrite lookup_ins in Hl2 by (rewrite Hlenl; lia). destruct (decide (m = m')) as [<-|Hne].
        + congruence.
        + eauto. }
    destruct Hcase as [(r0 & Ek & HinL)|(HnL & d' & c'' & Ek & Hsec)].
    + eexists s', [], vs, L, (<[i := PDone]> ph). split; [reflexivity|]. rewrite app_nil_r. split; [|cbn; apply insert_length].
      apply Hgen; [discriminate|]. eauto.
    + eexists s', [], vs, L, (<[i := PWait]> ph). split; [reflexivity|]. rewrite app_nil_r. split; [|cbn; apply insert_length].
      apply Hgen; [discriminate|]. exists d', c''. rewrite <- Em. auto.
  - (* read *)
    assert (exists m0 d0, p = PIn m0 d0) as (m0 & d0 & ->).
    { destruct p; [congruence|destruct T4 as (? & ? & ? & E & _); congruence|eauto|destruct T4 as (? & ? & E & _); congruence]. }
    destruct T4 as (o' & c' & t & t' & c'' & E & Em & Hinv & Hs & Hv & Hrun & Hcase). injection E as <- <-.
    cbn [Conc.sec] in Hrun. destruct (Nat.eqb_spec m0 m) as [->|]; [|discriminate].
    rewrite Hs in Hstep. injection Hstep as <-.
    eexists _, [], vs, L, ph. split; [reflexivity|]. rewrite app_nil_r. split; [|cbn; apply insert_length].
    constructor; cbn [set_thread st_threads st_shards st_locks]; try assumption.
    + rewrite insert_length. assumption.
    + intros j th' pj Hj Hpj. rewrite lookup_ins in Hj by assumption. destruct (decide (i = j)) as [<-|Hne].
      * injection Hj as <-. rewrite Hp in Hpj. injection Hpj as <-. split; [|split; [|split]]; cbn.
        -- intros n o' r' Hin. destruct (T1 _ _ _ Hin) as [?|(? & _)]; [left; assumption|right; eauto].
        -- assumption.
        -- intros n o' Hin. destruct (T3 _ _ Hin) as [?|(? & c1 & E1)]; [auto|]. injection E1 as <- <-. right. eauto.
        -- exists o, (k t), t, t', c''. eauto 10.
      * frame Hth.
    + intros j n o' r' Hin. rewrite insert_length. eauto.
    + intros j n Hin. rewrite insert_length. eauto.
  - (* write *)
    assert (exists m0 d0, p = PIn m0 d0) as (m0 & d0 & ->).
    { destruct p; [congruence|destruct T4 as (? & ? & ? & E & _); congruence|eauto|destruct T4 as (? & ? & E & _); congruence]. }
    destruct T4 as (o' & c' & t & t' & c'' & E & Em & Hinv & Hs & Hv & Hrun & Hcase). injection E as <- <-.
    cbn [Conc.sec] in Hrun. destruct d0; [|discriminate]. destruct (Nat.eqb_spec m0 m) as [->|]; [|discriminate].
    rewrite Hs in Hstep. injection Hstep as <-.
    pose proof (lookup_lt_Some _ _ _ Hs) as Hms.
    destruct (st_locks s !! m) as [l|] eqn:Hl; [|apply lookup_ge_None in Hl; lia].
    destruct (Hlocks m l Hl) as (A1 & A2 & A3 & A4). pose proof (proj2 (A1 i) Hp) as Hlw.
    eexists _, [], vs, L, ph. split; [reflexivity|]. rewrite app_nil_r. split; [|cbn; apply insert_length].
    constructor; cbn [set_thread set_shard st_threads st_shards st_locks]; try assumption.
    + rewrite insert_length. assumption.
    + rewrite insert_length. assumption.
    + intros j th' pj Hj Hpj. rewrite lookup_ins in Hj by assumption. destruct (decide (i = j)) as [<-|Hne].
      * injection Hj as <-. rewrite Hp in Hpj. injection Hpj as <-. split; [|split; [|split]]; cbn.
        -- intros n o' r' Hin. destruct (T1 _ _ _ Hin) as [?|(? & _)]; [left; assumption|right; eauto].
        -- assumption.
        -- intros n o' Hin. destruct (T3 _ _ Hin) as [?|(? & c1 & E1)]; [auto|]. injection E1 as <- <-. right. eauto.
        -- exists o, (k t), (g t), t', c''. split; [reflexivity|]. split; [assumption|]. split; [assumption|]. split; [apply list_lookup_insert; assumption|auto].
      * frame Hth. intros m' d0 ->. split; [|reflexivity]. cbn. destruct (decide (m = m')) as [<-|Hnm]; [|apply list_lookup_insert_ne; assumption].
        exfalso. destruct d0.
        -- apply A1 in Hpj. congruence.
        -- apply A2 in Hpj. rewrite A4 in Hpj by congruence. destruct Hpj.
    + intros j n o' r' Hin. rewrite insert_length. eauto.
    + intros j n Hin. rewrite insert_length. eauto.
    + intros m' l' Hl' Hlw'. destruct (decide (m = m')) as [<-|Hnm]; [congruence|]. rewrite list_lookup_insert_ne by assumption. eauto.
  - (* fail *)
    exfalso. destruct p; [congruence|destruct T4 as (? & ? & ? & E & _); congruence| |destruct T4 as (? & ? & E & _); congruence].
    destruct T4 as (? & ? & ? & ? & ? & E & _ & _ & _ & _ & E2 & _). injection E as <- <-. discriminate.
Qed.

(** ** All reachable states *)
Lemma inv_start ts progs : (forall m t, ts !! m = Some t -> good m t) ->
  inv ts (start ts progs) ts [] [] (replicate (length progs) PIdle).
Proof using.
  intros Hg. constructor; cbn.
  - rewrite replicate_length, map_length. reflexivity.
  - reflexivity.
  - apply replicate_length.
  - assumption.
  - constructor.
  - apply lin_nil. reflexivity.
  - intros i th p Hi Hp. apply lookup_replicate in Hp. destruct Hp as [-> _].
    change (map ?f progs) with (f <$> progs) in Hi. rewrite list_lookup_fmap in Hi. destruct (progs !! i); [|discriminate]. injection Hi as <-.
    split; [intros ? ? ? []|]. split; [intros ? ? []|]. split; [intros ? ? []|]. reflexivity.
  - intros ? ? ? ? [].
  - intros ? ? [[? []]|[? []]].
  - intros m l Hl. apply lookup_replicate in Hl. destruct Hl as [-> _]. cbn. split; [|split; [|split; [constructor|auto]]].
    + intros i. split; [discriminate|]. intros H. apply lookup_replicate in H. destruct H. discriminate.
    + intros i. split; [intros []|]. intros H. apply lookup_replicate in H. destruct H. discriminate.
  - reflexivity.
Qed.
Lemma reach_inv ts progs s tr : (forall o, shard o < length ts) -> (forall m t, ts !! m = Some t -> good m t) ->
  reach code pref (start ts progs) s tr -> exists vs L ph, inv ts s vs L tr ph.
Proof.
  intros Hsh Hg H. induction H as [|s tr i s' ev H IH Hs].
  - eexists _, _, _. apply inv_start. assumption.
  - destruct IH as (vs & L & ph & HI). destruct (step_inv _ _ _ _ _ _ _ _ Hsh HI Hs) as (s1 & ev1 & vs' & L' & ph' & E & HI' & _).
    injection E as <- <-. eauto.
Qed.

Lemma idle_shards ts s vs L tr ph : inv ts s vs L tr ph -> idle s -> st_shards s = vs.
Proof using.
  intros [Hlen Hlens Hlenl Hgood Hseq Hlin Hth Hids Hevs Hlocks Hstable] Hidle. apply list_eq. intros m.
  destruct (st_locks s !! m) as [l|] eqn:Hl.
  - apply (Hstable m l Hl). destruct (lw l) as [i|] eqn:Hlw; [|reflexivity]. exfalso.
    destruct (Hlocks m l Hl) as (A1 & _). pose proof (proj1 (A1 i) Hlw) as Hp.
    destruct (st_threads s !! i) as [th|] eqn:Hi; [|apply lookup_ge_None in Hi; apply lookup_lt_Some in Hp; lia].
    destruct (Hth _ _ _ Hi Hp) as (_ & _ & _ & o & c & ? & ? & ? & E & _).
    unfold idle in Hidle. rewrite Forall_lookup in Hidle. rewrite (Hidle _ _ Hi) in E. discriminate.
  - apply lookup_ge_None in Hl. rewrite !(proj2 (lookup_ge_None _ _)) by lia. reflexivity.
Qed.

(** linearizable, and never undefined behaviour *)
Theorem linearizable ts progs s tr : (forall o, shard o < length ts) -> (forall m t, ts !! m = Some t -> good m t) ->
  reach code pref (start ts progs) s tr ->
  (exists L vs, linearization tr L /\ seqrun shard spec ts L vs /\ (forall m t, vs !! m = Some t -> good m t) /\ (idle s -> st_shards s = vs)) /\
  (forall i, step s i <> Some UB).
Proof.
  intros Hsh Hg H. destruct (reach_inv _ _ _ _ Hsh Hg H) as (vs & L & ph & HI). split.
  - exists L, vs. split; [exact (i_lin _ _ _ _ _ _ _ _ _ HI)|]. split; [exact (i_seq _ _ _ _ _ _ _ _ _ HI)|].
    split; [exact (i_good _ _ _ _ _ _ _ _ _ HI)|]. intros Hid. eapply idle_shards; eassumption.
  - intros i Hs. destruct (step_inv _ _ _ _ _ _ _ _ Hsh HI Hs) as (? & ? & ? & ? & ? & E & _). discriminate.
Qed.

(** ** Data races: two threads about to access the same shard, one of them writing *)
Definition accesses (s : state) (i m : nat) (w : bool) : Prop :=
  exists th o c, st_threads s !! i = Some th /\ th_cur th = Some (o, c) /\
    ((exists g k, c = CWrite m g k /\ w = true) \/ (exists k, c = CRead m k /\ w = false)).
Definition race (s : state) : Prop := exists i j m w, i <> j /\ accesses s i m true /\ accesses s j m w.

Lemma accesses_in ts s vs L tr ph i m w : inv ts s vs L tr ph -> accesses s i m w ->
  exists d, ph !! i = Some (PIn m d) /\ (w = true -> d = Excl).
Proof using.
  intros HI (th & o & c & Hi & Hc & Hcase). pose proof (lookup_lt_Some _ _ _ Hi) as Hlt.
  destruct (ph !! i) as [p|] eqn:Hp; [|apply lookup_ge_None in Hp; pose proof (i_len _ _ _ _ _ _ _ _ _ HI); lia].
  pose proof (i_threads _ _ _ _ _ _ _ _ _ HI _ _ _ Hi Hp) as (_ & _ & _ & T4).
  destruct p as [| |m0 d|].
  - congruence.
  - exfalso. destruct T4 as (o' & d & c' & E & _). destruct Hcase as [(g & k & -> & _)|(k & -> & _)]; congruence.
  - destruct T4 as (o' & c' & t & t' & c'' & E & _ & _ & _ & _ & Hrun & _). rewrite Hc in E. injection E as <- <-.
    destruct Hcase as [(g & k & -> & ->)|(k & -> & ->)]; cbn in Hrun.
    + destruct d; [|discriminate]. destruct (Nat.eqb_spec m0 m) as [->|]; [|discriminate]. eauto.
    + destruct (Nat.eqb_spec m0 m) as [->|]; [|discriminate]. exists d. split; [reflexivity|discriminate].
  - exfalso. destruct T4 as (o' & r & E & _). destruct Hcase as [(g & k & -> & _)|(k & -> & _)]; congruence.
Qed.
Theorem no_race ts progs s tr : (forall o, shard o < length ts) -> (forall m t, ts !! m = Some t -> good m t) ->
  reach code pref (start ts progs) s tr -> ~ race s.
Proof.
  intros Hsh Hg H (i & j & m & w & Hij & Hi & Hj). destruct (reach_inv _ _ _ _ Hsh Hg H) as (vs & L & ph & HI).
  destruct (accesses_in _ _ _ _ _ _ _ _ _ HI Hi) as (d & Hpi & Hd). rewrite (Hd eq_refl) in Hpi.
  destruct (accesses_in _ _ _ _ _ _ _ _ _ HI Hj) as (d' & Hpj & _).
  assert (Hm : exists l, st_locks s !! m = Some l).
  { destruct (st_locks s !! m) eqn:Hl; [eauto|]. exfalso. apply lookup_ge_None in Hl.
    destruct Hi as (th & o & c & Hti & _). destruct (i_threads _ _ _ _ _ _ _ _ _ HI _ _ _ Hti Hpi) as (_ & _ & _ & ? & ? & ? & ? & ? & _ & _ & _ & Hs & _).
    apply lookup_lt_Some in Hs. pose proof (i_lens _ _ _ _ _ _ _ _ _ HI). pose proof (i_lenl _ _ _ _ _ _ _ _ _ HI). lia. }
  destruct Hm as [l Hl]. destruct (i_locks _ _ _ _ _ _ _ _ _ HI m l Hl) as (A1 & A2 & A3 & A4).
  apply A1 in Hpi. destruct d'.
  - apply A1 in Hpj. congruence.
  - apply A2 in Hpj. rewrite A4 in Hpj by congruence. destruct Hpj.
Qed.

(** ** Progress: as long as a thread has something to do, some thread can take a step; and all executions are finite *)
Definition finished (s : state) : Prop := Forall (fun th => th_cur th = None /\ th_todo th = []) (st_threads s).
Lemma unfinished (l : list thread) : ~ Forall (fun th => th_cur th = None /\ th_todo th = []) l ->
  exists i th, l !! i = Some th /\ (th_cur th <> None \/ th_todo th <> []).
Proof using.
  induction l as [|x l IH]; intros H; [destruct H; constructor|].
  destruct (th_cur x) eqn:Hc; [exists 0, x; split; [reflexivity|left; congruence]|].
  destruct (th_todo x) eqn:Ht; [|exists 0, x; split; [reflexivity|right; congruence]].
  destruct IH as (i & th & Hi & Hx); [|exists (S i), th; auto]. intros HF. apply H. constructor; auto.
Qed.
Lemma in_steps ts s vs L tr ph i m d : inv ts s vs L tr ph -> ph !! i = Some (PIn m d) -> step s i <> None.
Proof using.
  intros HI Hp. pose proof (lookup_lt_Some _ _ _ Hp) as Hlt. rewrite (i_len _ _ _ _ _ _ _ _ _ HI) in Hlt.
  destruct (lookup_lt_is_Some_2 _ _ Hlt) as [th Hi].
  destruct (i_threads _ _ _ _ _ _ _ _ _ HI _ _ _ Hi Hp) as (_ & _ & _ & o & c & t & t' & c' & E & _ & _ & Hs & _ & Hrun & _).
  unfold Conc.step. rewrite Hi, E. destruct c; cbn in Hrun; try discriminate.
  - destruct (st_locks s !! m0); [|discriminate]. destruct (release _ _ _); discriminate.
  - destruct (m =? m0) eqn:Em; [|discriminate]. apply Nat.eqb_eq in Em. subst. rewrite Hs. discriminate.
  - destruct d; [|discriminate]. destruct (m =? m0) eqn:Em; [|discriminate]. apply Nat.eqb_eq in Em. subst. rewrite Hs. discriminate.
Qed.
Theorem progress ts progs s tr : (forall o, shard o < length ts) -> (forall m t, ts !! m = Some t -> good m t) ->
  reach code pref (start ts progs) s tr -> ~ finished s -> exists i s' ev, step s i = Some (Ok (s', ev)).
Proof.
  intros Hsh Hg H Hnf. destruct (reach_inv _ _ _ _ Hsh Hg H) as (vs & L & ph & HI).
  assert (Hen : exists i, step s i <> None).
  { assert (exists i th, st_threads s !! i = Some th /\ (th_cur th <> None \/ th_todo th <> [])) as (i & th & Hi & Hth).
    { apply unfinished. exact Hnf. }
    destruct (step s i) eqn:Hs; [exists i; congruence|].
    unfold Conc.step in Hs. rewrite Hi in Hs. destruct (th_cur th) as [[o c]|] eqn:Hc.
    2:{ destruct (th_todo th); [destruct Hth as [Hx|Hx]; congruence|discriminate]. }
    destruct c as [r0|m d k|m d k|m k|m g k|]; try discriminate.
    - destruct (st_locks s !! m) as [l|] eqn:Hl; [|discriminate]. destruct (owns l i); [discriminate|].
      destruct (free_for pref s m l d) eqn:Hf; [discriminate|].
      destruct (i_locks _ _ _ _ _ _ _ _ _ HI m l Hl) as (A1 & A2 & A3 & A4).
      unfold free_for in Hf. destruct (lw l) as [j|] eqn:Hlw.
      + exists j. eapply in_steps; [exact HI|]. apply A1. reflexivity.
      + destruct (lr l) as [|j lr'] eqn:Hlr.
        * destruct d; [discriminate|]. apply negb_false_iff, andb_true_iff in Hf. destruct Hf as [_ Hf].
          apply existsb_exists in Hf. destruct Hf as (th' & Hin & Hw). apply elem_of_list_In, elem_of_list_lookup in Hin. destruct Hin as [j Hj].
          exists j. unfold Conc.step. rewrite Hj. unfold wants_write in Hw.
          destruct (th_cur th') as [[o' c']|]; [|discriminate]. destruct c' as [|m' d' k'| | | |]; try discriminate. destruct d'; [|discriminate].
          apply Nat.eqb_eq in Hw. subst m'. rewrite Hl. destruct (owns l j); [discriminate|].
          unfold free_for. rewrite Hlw, Hlr. discriminate.
        * exists j. eapply in_steps; [exact HI|]. apply A2. left. reflexivity.
    - destruct (st_locks s !! m) as [l|]; [|discriminate]. destruct (release l i d); discriminate.
    - destruct (st_shards s !! m); discriminate.
    - destruct (st_shards s !! m); discriminate. }
  destruct Hen as [i Hen]. destruct (step s i) as [r|] eqn:Hs; [|contradiction].
  destruct (step_inv _ _ _ _ _ _ _ _ Hsh HI Hs) as (s' & ev & ? & ? & ? & -> & _). eauto.
Qed.

(** a thread component decreases with every step *)
Inductive sub_cmd : cmd -> cmd -> Prop :=
| sub_lock m d k : sub_cmd k (CLock m d k)
| sub_unlock m d k : sub_cmd k (CUnlock m d k)
| sub_read m k t : sub_cmd (k t) (CRead m k)
| sub_write m g k t : sub_cmd (k t) (CWrite m g k).
Lemma sub_cmd_wf c : Acc sub_cmd c.
Proof using. induction c; constructor; intros y Hy; inversion Hy; subst; auto. Qed.
Inductive less : thread -> thread -> Prop :=
| less_inv o os n c : less (mkThread os (Some (o, c)) n) (mkThread (o :: os) None n)
| less_ret os o r n n' : less (mkThread os None n') (mkThread os (Some (o, CDone r)) n)
| less_sub os o c c' n : sub_cmd c' c -> less (mkThread os (Some (o, c')) n) (mkThread os (Some (o, c)) n).
Lemma less_wf th : Acc less th.
Proof using.
  destruct th as [os cur n]. revert cur n. induction os as [|o os IH]; intros cur n.
  - assert (Hnone : forall n, Acc less (mkThread [] None n)) by (intros n0; constructor; intros y Hy; inversion Hy).
    destruct cur as [[o c]|]; [|apply Hnone]. induction (sub_cmd_wf c) as [c _ IHc]. constructor. intros y Hy.
    inversion Hy; subst; [apply Hnone|]. apply IHc. assumption.
  - assert (Hnone : forall n, Acc less (mkThread (o :: os) None n)) by (intros n0; constructor; intros y Hy; inversion Hy; subst; apply IH).
    destruct cur as [[o' c]|]; [|apply Hnone]. induction (sub_cmd_wf c) as [c _ IHc]. constructor. intros y Hy.
    inversion Hy; subst; [apply Hnone|]. apply IHc. assumption.
Qed.
Inductive less_list : list thread -> list thread -> Prop :=
| less_here x y l : less x y -> less_list (x :: l) (y :: l)
| less_there x l l' : less_list l l' -> less_list (x :: l) (x :: l').
Lemma less_list_wf l : Acc less_list l.
Proof using.
  induction l as [|x l IHl]; [constructor; intros y Hy; inversion Hy|].
  revert x. induction IHl as [l _ IH]. intros x. induction (less_wf x) as [x _ IHx].
  constructor. intros y Hy. inversion Hy; subst; [apply IHx; assumption|]. apply IH. assumption.
Qed.
Lemma less_insert (l : list thread) i x y : l !! i = Some y -> less x y -> less_list (<[i := x]> l) l.
Proof using.
  revert i. induction l as [|z l IH]; intros [|i] H Hl; cbn in H; try discriminate.
  - injection H as ->. constructor. assumption.
  - change (<[S i := x]> (z :: l)) with (z :: <[i := x]> l). constructor. auto.
Qed.
Lemma step_less (s : state) i s' ev : step s i = Some (Ok (s', ev)) -> less_list (st_threads s') (st_threads s).
Proof using.
  intros H. unfold Conc.step in H. destruct (st_threads s !! i) as [th|] eqn:Hi; [|discriminate].
  destruct th as [os cur n]. cbn in H. destruct cur as [[o c]|].
  2:{ destruct os; [discriminate|]. injection H as <- <-. cbn. eapply less_insert; [eassumption|constructor]. }
  destruct c as [r0|m d k|m d k|m k|m g k|]; try discriminate.
  - injection H as <- <-. cbn. eapply less_insert; [eassumption|constructor].
  - destruct (st_locks s !! m) as [l|]; [|discriminate]. destruct (owns l i); [discriminate|].
    destruct (free_for pref s m l d); [|discriminate]. injection H as <- <-. cbn. eapply less_insert; [eassumption|repeat constructor].
  - destruct (st_locks s !! m) as [l|]; [|discriminate]. destruct (release l i d); [|discriminate].
    injection H as <- <-. cbn. eapply less_insert; [eassumption|repeat constructor].
  - destruct (st_shards s !! m); [|discriminate]. injection H as <- <-. cbn. eapply less_insert; [eassumption|repeat constructor].
  - destruct (st_shards s !! m); [|discriminate]. injection H as <- <-. cbn. eapply less_insert; [eassumption|repeat constructor].
Qed.
(** there is no infinite execution *)
Theorem terminates (s : state) : Acc (fun s' s => exists i ev, step s i = Some (Ok (s', ev))) s.
Proof using.
  remember (st_threads s) as l eqn:Hl. revert s Hl. induction (less_list_wf l) as [l _ IH]. intros s ->.
  constructor. intros s' (i & ev & Hs). eapply IH; [|reflexivity]. eapply step_less. exact Hs.
Qed.
End ConcProof.
