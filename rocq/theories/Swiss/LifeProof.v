(** The heap model [Life] does what [Model] and [Multi] do, and keeps the heap tidy. *)
From stdpp Require Import list.
From Coq Require Import Arith NArith ZArith Lia.
From Verif.Common Require Import Res Word WordFacts.
From Verif.Swiss Require Import Group GroupSpec Model Probe Inv TableInv Resize Ops MapSpec History Reserve Multi MultiSpec MultiProof MultiHistory Life.
Local Open Scope nat_scope.
Local Open Scope res_scope.

Ltac ib H :=
  match type of H with
  | rbind ?x _ = _ => let Eq := fresh "Eq" in destruct x eqn:Eq; cbn [rbind] in H; try discriminate H
  end.

Section LifeProof.
Context {K V : Type} (hash : K -> N) (eqb : K -> K -> bool) (E : env).
Notation elt := (K * V)%type.
Notation table := (table K V).
Notation heap := (list (option (N * list (option elt)))).
Notation W := (g_width (e_group E)).

(** ** Heap operations on a known block *)
Section Heap.
Context (h : heap) (b : nat) (sz : N) (sl : list (option elt)).
Context (Hb : h !! b = Some (Some (sz, sl))).
Lemma hblock_eq : hblock h b = Ok (sz, sl).
Proof. unfold hblock. rewrite (load_some _ _ _ Hb). reflexivity. Qed.
Lemma hb_len : b < length h.
Proof. apply lookup_lt_is_Some. eauto. Qed.
Lemma hset_eq sl' : hset h b sl' = Ok (<[b := Some (sz, sl')]> h).
Proof. unfold hset. rewrite hblock_eq. cbn [rbind]. apply store_ok, hb_len. Qed.
Lemma hconstruct_eq i e sl' : construct sl i e = Ok sl' -> hconstruct h b i e = Ok (<[b := Some (sz, sl')]> h).
Proof. intros H. unfold hconstruct. rewrite hblock_eq. cbn [rbind]. rewrite H. cbn [rbind]. apply hset_eq. Qed.
Lemma htake_eq i e sl' : take_slot sl i = Ok (e, sl') -> htake h b i = Ok (e, <[b := Some (sz, sl')]> h).
Proof. intros H. unfold htake. rewrite hblock_eq. cbn [rbind]. rewrite H. cbn [rbind]. rewrite hset_eq. reflexivity. Qed.
Lemma hfree_eq : (forall s, In s sl -> s = None) -> hfree h b sz = Ok (<[b := None]> h).
Proof.
  intros H. unfold hfree. rewrite hblock_eq. cbn [rbind]. rewrite N.eqb_refl. cbn [andb].
  replace (forallb is_raw sl) with true; [apply store_ok, hb_len|].
  symmetry. apply forallb_forall. intros s Hs. rewrite (H s Hs). reflexivity.
Qed.
Lemma hsame : <[b := Some (sz, sl)]> h = h.
Proof. apply list_insert_id. assumption. Qed.
Lemma hlook x : (<[b := x]> h : heap) !! b = Some x.
Proof. apply list_lookup_insert, hb_len. Qed.
End Heap.

(** ** What an object owns *)
Definition mine (x : obj) (b : nat) : Prop := o_cap x <> 0 /\ o_blk x = b.
Definition owns (h : heap) (x : obj) (t : table) : Prop :=
  o_ctrl x = t_ctrl t /\ o_size x = t_size t /\ o_cap x = t_cap t /\ o_growth x = t_growth t /\
  (o_cap x = 0 -> t_slots t = []) /\
  (o_cap x <> 0 -> h !! o_blk x = Some (Some (alloc_size E (N.of_nat (o_cap x)), t_slots t))).

Lemma owns_empty h : owns h empty_obj empty_table.
Proof. repeat split. intros H. contradiction. Qed.

Lemma view_ok h x t : owns h x t -> view h x = Ok t.
Proof.
  intros (H1 & H2 & H3 & H4 & H5 & H6). unfold view. destruct t as [c sl s cap gr]. cbn in *. subst.
  destruct (Nat.eqb_spec (o_cap x) 0) as [H0|H0].
  - rewrite (H5 H0), H0. reflexivity.
  - rewrite (hblock_eq _ _ _ _ (H6 H0)). reflexivity.
Qed.

(** A step of one object: blocks of others are untouched, blocks it no longer owns were given back. *)
Definition step (h : heap) (x : obj) (h' : heap) (x' : obj) : Prop :=
  length h <= length h' /\
  (forall b, b < length h -> ~ mine x b -> h' !! b = h !! b /\ ~ mine x' b) /\
  (forall b, b < length h' -> mine x b \/ length h <= b -> ~ mine x' b -> h' !! b = Some None).

Lemma step_refl h x : step h x h x.
Proof.
  split; [lia|]. split; [auto|]. intros b Hb [H|H] Hn; [contradiction|lia].
Qed.
Lemma mine_dec x b : {mine x b} + {~ mine x b}.
Proof.
  unfold mine. destruct (Nat.eq_dec (o_cap x) 0); [right; tauto|]. destruct (Nat.eq_dec (o_blk x) b); [left; auto|right; tauto].
Qed.
Lemma step_trans h x h1 x1 h2 x2 : step h x h1 x1 -> step h1 x1 h2 x2 -> step h x h2 x2.
Proof.
  intros (L1 & F1 & G1) (L2 & F2 & G2). split; [lia|]. split.
  - intros b Hb Hm. destruct (F1 b Hb Hm) as [E1 M1]. destruct (F2 b ltac:(lia) M1) as [E2 M2].
    split; [congruence|assumption].
  - intros b Hb Hor Hm. destruct (Nat.lt_ge_cases b (length h1)) as [Hlt|Hge].
    + destruct (mine_dec x1 b) as [M1|M1]; [apply G2; auto|].
      destruct (F2 b Hlt M1) as [E2 _]. rewrite E2. apply G1; auto.
    + apply G2; auto.
Qed.
(* only the content of its own block changed, with or without its other fields *)
Lemma step_own h x x' s : o_cap x <> 0 -> o_blk x' = o_blk x -> o_cap x' = o_cap x -> step h x (<[o_blk x := s]> h) x'.
Proof.
  intros H0 Hb Hc. assert (Hm : forall b, mine x' b <-> mine x b) by (intros b; unfold mine; rewrite Hb, Hc; tauto).
  split; [rewrite insert_length; lia|]. split.
  - intros b Hlt Hn. rewrite Hm. split; [|assumption].
    apply list_lookup_insert_ne. intros Heq. apply Hn. split; auto.
  - intros b Hlt Hor Hn. rewrite Hm in Hn. rewrite insert_length in Hlt. destruct Hor; [contradiction|lia].
Qed.
Lemma step_fields h x x' : o_blk x' = o_blk x -> o_cap x' = o_cap x -> step h x h x'.
Proof.
  intros Hb Hc. assert (Hm : forall b, mine x' b <-> mine x b) by (intros b; unfold mine; rewrite Hb, Hc; tauto).
  split; [lia|]. split; [intros b _; rewrite Hm; auto|]. intros b Hlt [H|H] Hn; [rewrite Hm in Hn; contradiction|lia].
Qed.

(** ** Relation between the outcomes of the two models *)
Definition sim {A} (h : heap) (x : obj) (r : res (table * A)) (rh : res (heap * obj * A)) : Prop :=
  match r with
  | Ok (t', a) => exists h' x', rh = Ok (h', x', a) /\ owns h' x' t' /\ step h x h' x'
  | BadAlloc => rh = BadAlloc
  | _ => True
  end.
Definition sim0 (h : heap) (x : obj) (r : res table) (rh : res (heap * obj)) : Prop :=
  match r with
  | Ok t' => exists h' x', rh = Ok (h', x') /\ owns h' x' t' /\ step h x h' x'
  | BadAlloc => rh = BadAlloc
  | _ => True
  end.

Lemma owns_upd h x t sl ctrl size growth : owns h x t -> o_cap x <> 0 ->
  owns (<[o_blk x := Some (alloc_size E (N.of_nat (o_cap x)), sl)]> h) (mkObj ctrl (o_blk x) size (o_cap x) growth)
    (mkTable ctrl sl size (t_cap t) growth).
Proof.
  intros (_ & _ & Hc & _ & _ & H6) H0. repeat split; cbn; try assumption; try contradiction.
  intros _. eapply hlook. apply H6. assumption.
Qed.

(** ** Tables whose control bytes tell which slots hold an object *)
Definition clean (t : table) : Prop :=
  length (t_slots t) = t_cap t /\
  forall i, i < t_cap t -> exists c s, t_ctrl t !! i = Some c /\ t_slots t !! i = Some s /\ IsFull c = negb (is_raw s).
Lemma tinv0_clean t : tinv0 hash eqb E t -> clean t.
Proof.
  intros H0. split; [apply (ti_slen _ _ _ _ H0)|]. intros i Hi.
  destruct (wfc_byte _ _ _ (ti_wfc _ _ _ _ H0) i Hi) as (c & Hc & _).
  destruct (lookup_lt_is_Some_2 (t_slots t) i) as [s Hs]; [rewrite (ti_slen _ _ _ _ H0); assumption|].
  exists c, s. split; [assumption|]. split; [assumption|].
  pose proof (ti_rel _ _ _ _ H0 i c s Hi Hc Hs) as Hrel. unfold slot_rel in Hrel. unfold IsFull.
  destruct s as [e|]; cbn [is_raw negb].
  - subst c. pose proof (H2_range (hash (fst e))). apply Z.leb_le. lia.
  - apply Z.leb_gt. assumption.
Qed.
Lemma tinv_clean t : tinv hash eqb E t -> clean t.
Proof. intros Ht. apply tinv0_clean, (tv_0 _ _ _ _ Ht). Qed.
Lemma good_clean t : good hash eqb E t -> clean t.
Proof. intros [->|Ht]; [split; [reflexivity|intros i Hi; cbn in Hi; lia]|apply tinv_clean; assumption]. Qed.

(** ** resize *)
Lemma resize_loop_sim old_ctrl old_slots ob nb so sn : ob <> nb ->
  forall is h old (t t' : table),
  NoDup is -> (forall i, In i is -> old !! i = old_slots !! i) ->
  h !! ob = Some (Some (so, old)) -> h !! nb = Some (Some (sn, t_slots t)) ->
  resize_loop hash E is old_ctrl old_slots t = Ok t' ->
  exists h' old', resize_loop_h hash E is old_ctrl ob nb (t_cap t) h (t_ctrl t) = Ok (h', t_ctrl t') /\
    h' !! ob = Some (Some (so, old')) /\ h' !! nb = Some (Some (sn, t_slots t')) /\ length h' = length h /\
    (forall b, b <> ob -> b <> nb -> h' !! b = h !! b) /\
    (forall i c, In i is -> old_ctrl !! i = Some c -> IsFull c = true -> old' !! i = Some None) /\
    (forall i, (~ In i is \/ exists c, old_ctrl !! i = Some c /\ IsFull c = false) -> old' !! i = old !! i) /\
    t_size t' = t_size t /\ t_cap t' = t_cap t /\ t_growth t' = t_growth t /\ length old' = length old.
Proof.
  intros Hne. induction is as [|i is IH]; intros h old t t' Hnd Hold Hob Hnb Hr; cbn [resize_loop resize_loop_h] in *.
  - injection Hr as <-. exists h, old. repeat split; auto. intros i c [].
  - inversion Hnd as [|? ? Hni Hnd']; subst. rewrite elem_of_list_In in Hni.
    ib Hr. rename a into c. cbn [rbind]. destruct (IsFull c) eqn:HF.
    + ib Hr. ib Hr. ib Hr. ib Hr. ib Hr. rename a0 into e, a1 into p, a2 into ctrl', a3 into slots', Eq1 into Eqe, Eq2 into Eqp, Eq3 into Eqc, Eq4 into Eqs.
      destruct a as [e0|]; cbn in Eqe; [|discriminate]. injection Eqe as ->.
      apply load_ok in Eq0.
      assert (Hoi : old !! i = Some (Some e)) by (rewrite Hold by (left; reflexivity); assumption).
      rewrite (hblock_eq _ _ _ _ Hob). cbn [rbind]. rewrite (load_some _ _ _ Hoi). cbn [rbind of_option].
      rewrite Eqp. cbn [rbind]. rewrite Eqc. cbn [rbind].
      assert (Hilen : i < length old) by (apply lookup_lt_is_Some; eauto).
      rewrite (htake_eq h ob so old Hob i e (<[i := None]> old)).
      2:{ unfold take_slot. rewrite (load_some _ _ _ Hoi). cbn [rbind]. rewrite store_ok by assumption. reflexivity. }
      cbn [rbind].
      set (h1 := <[ob := Some (so, <[i := None]> old)]> h).
      assert (Hnb1 : h1 !! nb = Some (Some (sn, t_slots t))) by (unfold h1; rewrite list_lookup_insert_ne by congruence; assumption).
      rewrite (hconstruct_eq h1 nb sn (t_slots t) Hnb1 p e slots' Eqs). cbn [rbind].
      set (h2 := <[nb := Some (sn, slots')]> h1).
      destruct (IH h2 (<[i := None]> old) (mkTable ctrl' slots' (t_size t) (t_cap t) (t_growth t)) t' Hnd') as (h' & old' & G1 & G2 & G3 & G4 & G5 & G6 & G7 & G8 & G9 & G10 & G11).
      * intros j Hj. rewrite list_lookup_insert_ne by congruence. apply Hold. right. assumption.
      * unfold h2. rewrite list_lookup_insert_ne by congruence. unfold h1. eapply hlook, Hob.
      * unfold h2. eapply hlook, Hnb1.
      * assumption.
      * cbn [t_cap t_ctrl t_size t_growth] in *. exists h', old'. split; [assumption|]. split; [assumption|]. split; [assumption|].
        split; [rewrite G4; unfold h2, h1; rewrite !insert_length; reflexivity|].
        split; [intros b Hb1 Hb2; rewrite G5 by assumption; unfold h2, h1; rewrite !list_lookup_insert_ne by congruence; reflexivity|].
        apply load_ok in Eq.
        split.
        { intros j cj [->|Hj] Hcj HFj; [|eapply G6; eassumption].
          rewrite G7 by (left; assumption). apply list_lookup_insert. assumption. }
        split.
        { intros j Hj. assert (j <> i).
          { intros ->. destruct Hj as [Hj|(cj & Hcj & HFj)]; [apply Hj; left; reflexivity|]. congruence. }
          rewrite G7; [apply list_lookup_insert_ne; congruence|].
          destruct Hj as [Hj|Hj]; [left; intros Hin; apply Hj; right; assumption|right; assumption]. }
        rewrite insert_length in G11. auto.
    + destruct (IH h old t t' Hnd') as (h' & old' & G1 & G2 & G3 & G4 & G5 & G6 & G7 & G8); auto.
      { intros j Hj. apply Hold. right. assumption. }
      apply load_ok in Eq.
      exists h', old'. split; [assumption|]. repeat (split; [assumption|]). split.
      { intros j cj [->|Hj] Hcj HFj; [congruence|eapply G6; eassumption]. }
      split; [|assumption].
      intros j Hj. apply G7. destruct Hj as [Hj|Hj]; [left; intros Hin; apply Hj; right; assumption|right; assumption].
Qed.

(** ** Which operations never run out of memory *)
Definition nba {A} (r : res A) : Prop := r <> BadAlloc.
Lemma nba_bind {A B} (r : res A) (f : A -> res B) : nba r -> (forall a, nba (f a)) -> nba (rbind r f).
Proof. intros H1 H2. destruct r; cbn; try discriminate; auto. exfalso. apply H1. reflexivity. Qed.
Lemma nba_opt {A} (o : option A) : nba (of_option o).
Proof. destruct o; discriminate. Qed.
Lemma nba_load {A} (l : list A) i : nba (load l i).
Proof. apply nba_opt. Qed.
Lemma nba_store {A} (l : list A) i x : nba (store l i x).
Proof. unfold store. destruct (_ <? _); discriminate. Qed.
Lemma nba_set c cap i z : nba (set_ctrl E c cap i z).
Proof. unfold set_ctrl. destruct (_ <? _); [|discriminate]. apply nba_bind; [apply nba_store|intros; apply nba_store]. Qed.
Lemma nba_construct (sl : list (option elt)) i e : nba (construct sl i e).
Proof. unfold construct. apply nba_bind; [apply nba_load|]. intros [?|]; [discriminate|apply nba_store]. Qed.
Lemma nba_ffnf_loop f : forall c cap off idx, nba (ffnf_loop E f c cap off idx).
Proof.
  induction f as [|f IH]; intros c cap off idx; cbn [ffnf_loop]; [discriminate|].
  apply nba_bind; [unfold window; destruct (_ <=? _); discriminate|]. intros w.
  destruct (g_first_nonfull (e_group E) w); [discriminate|]. destruct (probe_next E cap off idx). apply IH.
Qed.
Lemma nba_ffnf c cap h : nba (find_first_non_full E c cap h).
Proof. apply nba_ffnf_loop. Qed.
Lemma nba_take (sl : list (option elt)) i : nba (take_slot sl i).
Proof.
  unfold take_slot. apply nba_bind; [apply nba_load|]. intros [?|]; [|discriminate].
  apply nba_bind; [apply nba_store|discriminate].
Qed.
Lemma nba_resize_loop oc os is : forall t : table, nba (resize_loop hash E is oc os t).
Proof.
  induction is as [|i is IH]; intros t; cbn [resize_loop]; [discriminate|].
  apply nba_bind; [apply nba_load|]. intros c. destruct (IsFull c); [|apply IH].
  apply nba_bind; [apply nba_load|]. intros s. apply nba_bind; [apply nba_opt|]. intros e.
  apply nba_bind; [apply nba_ffnf|]. intros p. apply nba_bind; [apply nba_set|]. intros c'.
  apply nba_bind; [apply nba_construct|]. intros sl. apply IH.
Qed.
Lemma nba_drop_loop f : forall (t : table) i, nba (drop_loop hash E f t i).
Proof.
  induction f as [|f IH]; intros t i; cbn [drop_loop]; [discriminate|].
  destruct (i =? t_cap t); [discriminate|].
  apply nba_bind; [apply nba_load|]. intros c. destruct (negb (IsDeleted c)); [apply IH|].
  apply nba_bind; [apply nba_load|]. intros s. apply nba_bind; [apply nba_opt|]. intros e.
  apply nba_bind; [apply nba_ffnf|]. intros p. destruct (_ =? _).
  - apply nba_bind; [apply nba_set|]. intros c'. apply IH.
  - apply nba_bind; [apply nba_load|]. intros cn. destruct (IsEmpty cn).
    + apply nba_bind; [apply nba_set|]. intros c1. apply nba_bind; [apply nba_take|]. intros [e1 s1].
      apply nba_bind; [apply nba_construct|]. intros s2. apply nba_bind; [apply nba_set|]. intros c2. apply IH.
    + apply nba_bind; [apply nba_set|]. intros c1. apply nba_bind; [apply nba_take|]. intros [e1 s1].
      apply nba_bind; [apply nba_take|]. intros [e2 s2]. apply nba_bind; [apply nba_construct|]. intros s3.
      apply nba_bind; [apply nba_construct|]. intros s4. apply IH.
Qed.

Lemma all_raw (sl : list (option elt)) n : length sl = n -> (forall i, i < n -> sl !! i = Some None) -> sl = replicate n None.
Proof.
  intros Hl H. apply list_eq. intros i. destruct (Nat.lt_ge_cases i n) as [Hi|Hi].
  - rewrite H by assumption. symmetry. apply lookup_replicate_2. assumption.
  - rewrite lookup_ge_None_2 by lia. symmetry. apply lookup_ge_None_2. rewrite replicate_length. assumption.
Qed.
Lemma in_replicate (n : nat) (s : option elt) : In s (replicate n None) -> s = None.
Proof. intros H. apply elem_of_list_In, elem_of_replicate in H. tauto. Qed.

Lemma resize_sim h x (t : table) m : owns h x t -> clean t -> N.to_nat m <> 0 ->
  sim0 h x (resize hash E t m) (resize_h hash E h x m).
Proof.
  intros Ho [Hlen Hcl] Hm. pose proof Ho as (H1 & H2 & H3 & H4 & H5 & H6).
  unfold sim0, resize, resize_h, initialize_slots.
  destruct (e_max_bytes E <? alloc_size E m)%N; cbn [rbind]; [reflexivity|].
  destruct (alloc_size E m <? needed_bytes E m)%N; cbn [rbind]; [exact I|].
  set (t0 := mkTable (reset_ctrl E (e_junk E) (N.to_nat m)) (replicate (N.to_nat m) None) (t_size t) (N.to_nat m)
    (growth_left_for E (N.to_nat m) (t_size t))).
  destruct (resize_loop hash E (seq 0 (t_cap t)) (t_ctrl t) (t_slots t) t0) as [t'| | | |] eqn:Hr; auto.
  2:{ exfalso. eapply nba_resize_loop, Hr. }
  cbn [halloc]. set (h1 := h ++ [Some (alloc_size E m, replicate (N.to_nat m) None)]).
  assert (Hnb : h1 !! length h = Some (Some (alloc_size E m, t_slots t0))).
  { unfold h1. rewrite lookup_app_r by lia. rewrite Nat.sub_diag. reflexivity. }
  rewrite H1, H3, H2. destruct (Nat.eqb_spec (t_cap t) 0) as [H0|H0].
  - rewrite H0 in *. cbn [seq resize_loop resize_loop_h rbind] in *. injection Hr as <-.
    exists h1, (mkObj (reset_ctrl E (e_junk E) (N.to_nat m)) (length h) (t_size t) (N.to_nat m) (growth_left_for E (N.to_nat m) (t_size t))).
    split; [reflexivity|]. split.
    + repeat split; cbn [o_ctrl o_size o_cap o_growth o_blk]; try contradiction.
      intros _. rewrite N2Nat.id. exact Hnb.
    + split; [unfold h1; rewrite app_length; lia|]. split.
      * intros b Hb Hn. split; [unfold h1; apply lookup_app_l; assumption|]. intros [_ Hbb]. cbn in Hbb. lia.
      * intros b Hb Hor Hn. exfalso. unfold h1 in Hb. rewrite app_length in Hb. cbn in Hb.
        destruct Hor as [[Hc _]|Hge]; [congruence|]. apply Hn. split; cbn; [assumption|lia].
  - assert (Hblk : h !! o_blk x = Some (Some (alloc_size E (N.of_nat (t_cap t)), t_slots t))).
    { rewrite <- H3. apply H6. congruence. }
    pose proof (hb_len _ _ _ _ Hblk) as Hbl.
    assert (Hob : h1 !! o_blk x = Some (Some (alloc_size E (N.of_nat (t_cap t)), t_slots t))).
    { unfold h1. rewrite lookup_app_l by assumption. assumption. }
    destruct (resize_loop_sim (t_ctrl t) (t_slots t) (o_blk x) (length h) (alloc_size E (N.of_nat (t_cap t))) (alloc_size E m) ltac:(lia) (seq 0 (t_cap t)) h1 (t_slots t) t0 t')
      as (h2 & old' & G1 & G2 & G3 & G4 & G5 & G6 & G7 & G8 & G9 & G10 & G11); auto.
    { apply NoDup_ListNoDup, seq_NoDup. }
    cbn [t_ctrl t_cap t0] in G1. rewrite G1. cbn [rbind].
    assert (Hraw : old' = replicate (t_cap t) None).
    { apply all_raw; [congruence|]. intros i Hi. destruct (Hcl i Hi) as (c & s & Hc & Hs & Hf).
      destruct (IsFull c) eqn:HF.
      - eapply G6; eauto. apply in_seq. lia.
      - rewrite G7 by (right; eauto). destruct s; [discriminate|]. assumption. }
    subst old'. rewrite (hfree_eq _ _ _ _ G2) by apply in_replicate. cbn [rbind].
    exists (<[o_blk x := None]> h2), (mkObj (t_ctrl t') (length h) (t_size t) (N.to_nat m) (growth_left_for E (N.to_nat m) (t_size t))).
    split; [reflexivity|]. cbn [t_size t_cap t_growth t0] in *. split.
    + repeat split; cbn [o_ctrl o_size o_cap o_growth o_blk]; try congruence.
      intros _. rewrite list_lookup_insert_ne by lia. rewrite G3. rewrite N2Nat.id. reflexivity.
    + assert (Hl2 : length h2 = S (length h)) by (rewrite G4; unfold h1; rewrite app_length; cbn; lia).
      split; [rewrite insert_length; lia|]. split.
      * intros b Hb Hn. assert (b <> o_blk x) by (intros ->; apply Hn; split; congruence).
        split; [|intros [_ Hbb]; cbn in Hbb; lia].
        rewrite list_lookup_insert_ne by congruence. rewrite G5 by lia. unfold h1. apply lookup_app_l. assumption.
      * intros b Hb Hor Hn. rewrite insert_length in Hb. destruct (Nat.eq_dec b (o_blk x)) as [->|Hne].
        { apply list_lookup_insert. lia. }
        exfalso. destruct Hor as [[_ Hbb]|Hge]; [congruence|]. apply Hn. split; cbn; [assumption|lia].
Qed.

(** ** drop_deletes_without_resize *)
Lemma drop_loop_sim b sz f : forall h (t t' : table) i,
  h !! b = Some (Some (sz, t_slots t)) -> drop_loop hash E f t i = Ok t' ->
  drop_loop_h hash E f b (t_cap t) h (t_ctrl t) i = Ok (<[b := Some (sz, t_slots t')]> h, t_ctrl t') /\
  t_size t' = t_size t /\ t_cap t' = t_cap t /\ t_growth t' = t_growth t.
Proof.
  induction f as [|f IH]; intros h t t' i Hb Hr; cbn [drop_loop drop_loop_h] in *; [discriminate|].
  destruct (i =? t_cap t).
  { injection Hr as <-. rewrite (hsame _ _ _ _ Hb). auto. }
  ib Hr. rename a into c. cbn [rbind]. destruct (negb (IsDeleted c)); [apply IH; assumption|].
  rewrite (hblock_eq _ _ _ _ Hb). cbn [rbind]. ib Hr. cbn [rbind]. ib Hr. rename a0 into e. cbn [rbind].
  ib Hr. rename a0 into p. cbn [rbind]. destruct (_ =? _).
  - ib Hr. cbn [rbind]. apply (IH h (mkTable a0 (t_slots t) (t_size t) (t_cap t) (t_growth t)) t' (S i)); assumption.
  - ib Hr. cbn [rbind]. destruct (IsEmpty a0).
    + ib Hr. cbn [rbind]. ib Hr. destruct a2 as [e1 s1]. ib Hr. ib Hr.
      rewrite (htake_eq _ _ _ _ Hb _ _ _ Eq5). cbn [rbind].
      rewrite (hconstruct_eq _ _ _ _ (hlook _ _ _ _ Hb _) _ _ _ Eq6). cbn [rbind].
      rewrite list_insert_insert.
      destruct (IH (<[b := Some (sz, a2)]> h) (mkTable a3 a2 (t_size t) (t_cap t) (t_growth t)) t' (S i)) as (G1 & G2); [eapply hlook, Hb|assumption|].
      cbn [t_cap t_ctrl t_size t_growth t_slots] in *. rewrite G1, list_insert_insert. auto.
    + ib Hr. cbn [rbind]. ib Hr. destruct a2 as [e1 s1]. ib Hr. destruct a2 as [e2 s2]. ib Hr. ib Hr.
      rewrite (htake_eq _ _ _ _ Hb _ _ _ Eq5). cbn [rbind].
      rewrite (htake_eq _ _ _ _ (hlook _ _ _ _ Hb _) _ _ _ Eq6). cbn [rbind]. rewrite list_insert_insert.
      rewrite (hconstruct_eq _ _ _ _ (hlook _ _ _ _ Hb _) _ _ _ Eq7). cbn [rbind]. rewrite list_insert_insert.
      rewrite (hconstruct_eq _ _ _ _ (hlook _ _ _ _ Hb _) _ _ _ Eq8). cbn [rbind]. rewrite list_insert_insert.
      destruct (IH (<[b := Some (sz, a3)]> h) (mkTable a1 a3 (t_size t) (t_cap t) (t_growth t)) t' i) as (G1 & G2); [eapply hlook, Hb|assumption|].
      cbn [t_cap t_ctrl t_size t_growth t_slots] in *. rewrite G1, list_insert_insert. auto.
Qed.

Lemma nba_convert c cap : nba (convert_ctrl E c cap).
Proof. unfold convert_ctrl. destruct (_ =? _); [apply nba_store|discriminate]. Qed.

Lemma drop_deletes_sim h x (t : table) : owns h x t -> o_cap x <> 0 ->
  sim0 h x (drop_deletes_without_resize hash E t) (drop_deletes_h hash E h x).
Proof.
  intros Ho H0. pose proof Ho as (H1 & H2 & H3 & H4 & H5 & H6). specialize (H6 H0).
  unfold sim0, drop_deletes_without_resize, drop_deletes_h. rewrite H1, H2, H3.
  destruct (t_cap t <? W - 1); [exact I|].
  destruct (convert_ctrl E (t_ctrl t) (t_cap t)) as [c| | | |] eqn:Hc; cbn [rbind]; auto.
  set (t0 := mkTable c (t_slots t) (t_size t) (t_cap t) (t_growth t)).
  destruct (drop_loop hash E (S (2 * t_cap t)) t0 0) as [t'| | | |] eqn:Hr; cbn [rbind]; auto.
  2:{ exfalso. eapply nba_drop_loop, Hr. }
  destruct (drop_loop_sim (o_blk x) _ _ h t0 t' 0 H6 Hr) as (G1 & G2 & G3 & G4).
  cbn [t_cap t_ctrl t_size t_growth t0] in *. rewrite G1. cbn [rbind].
  eexists _, _. split; [reflexivity|]. rewrite G2, G3, <- H3. split.
  - pose proof (owns_upd h x t (t_slots t') (t_ctrl t') (t_size t) (growth_left_for E (o_cap x) (t_size t)) Ho H0) as Hu.
    rewrite <- H3 in Hu. exact Hu.
  - apply step_own; [assumption|reflexivity|reflexivity].
Qed.

Lemma grow_nonzero c : N.to_nat (wadd 64 (wmul 64 c 2) 1) <> 0.
Proof.
  unfold wadd, wmul. intros H. assert (H' : (((c * 2) mod 2 ^ 64 + 1) mod 2 ^ 64)%N = 0%N) by lia. clear H.
  assert (He : ((c * 2) mod 2 ^ 64)%N = (2 * (c mod 2 ^ 63))%N).
  { replace (2 ^ 64)%N with (2 * 2 ^ 63)%N by reflexivity. rewrite (N.mul_comm c 2). apply N.mul_mod_distr_l; discriminate. }
  rewrite He in H'. pose proof (N.mod_lt c (2 ^ 63) ltac:(discriminate)). rewrite N.mod_small in H'; lia.
Qed.

Lemma rehash_and_grow_sim h x (t : table) : owns h x t -> clean t ->
  sim0 h x (rehash_and_grow_if_necessary hash E t) (rehash_and_grow_h hash E h x).
Proof.
  intros Ho Hc. pose proof Ho as (H1 & H2 & H3 & H4 & H5 & H6).
  unfold rehash_and_grow_if_necessary, rehash_and_grow_h. rewrite H2, H3.
  destruct (Nat.eqb_spec (t_cap t) 0); [apply resize_sim; auto; discriminate|].
  destruct (t_size t <=? CapacityToGrowth W (t_cap t) / 2).
  - apply drop_deletes_sim; [assumption|congruence].
  - apply resize_sim; auto. apply grow_nonzero.
Qed.

(** ** Insertion *)
Definition sim1 {A} (h : heap) (x : obj) (r : res (table * A)) (rh : res (heap * obj * A)) : Prop :=
  match r with
  | Ok (t', a) => exists h' x', rh = Ok (h', x', a) /\ owns h' x' t' /\ step h x h' x'
  | BadAlloc => rh = BadAlloc
  | _ => True
  end.
Definition sim2 {A B} (h : heap) (x : obj) (r : res (table * A * B)) (rh : res (heap * obj * A * B)) : Prop :=
  match r with
  | Ok (t', a, b) => exists h' x', rh = Ok (h', x', a, b) /\ owns h' x' t' /\ step h x h' x'
  | BadAlloc => rh = BadAlloc
  | _ => True
  end.

Lemma prepare_sim h x (t : table) hv : owns h x t -> clean t ->
  sim1 h x (prepare_insert hash E t hv) (prepare_insert_h hash E h x hv).
Proof.
  intros Ho Hc. pose proof Ho as (H1 & H2 & H3 & H4 & H5 & H6).
  unfold sim1, prepare_insert, prepare_insert_h. rewrite H1, H3, H4.
  destruct (find_first_non_full E (t_ctrl t) (t_cap t) hv) as [p0| | | |]; cbn [rbind]; auto.
  destruct (load (t_ctrl t) p0) as [c0| | | |]; cbn [rbind]; auto.
  assert (Hfin : forall h1 x1 t1 p c, owns h1 x1 t1 -> step h x h1 x1 -> load (t_ctrl t1) p = Ok c ->
    exists h' x', (let* c := load (o_ctrl x1) p in
      Ok (h1, mkObj (o_ctrl x1) (o_blk x1) (S (o_size x1)) (o_cap x1) (wsub 64 (o_growth x1) (if IsEmpty c then 1 else 0)), p)) = Ok (h', x', p) /\
      owns h' x' (mkTable (t_ctrl t1) (t_slots t1) (S (t_size t1)) (t_cap t1) (wsub 64 (t_growth t1) (if IsEmpty c then 1 else 0))) /\ step h x h' x').
  { intros h1 x1 t1 p c (I1 & I2 & I3 & I4 & I5 & I6) Hs Hl. rewrite I1, Hl. cbn [rbind]. eexists _, _. split; [reflexivity|]. split.
    - repeat split; cbn; try congruence; auto.
    - eapply step_trans; [exact Hs|]. apply step_fields; reflexivity. }
  destruct ((t_growth t =? 0)%N && negb (IsDeleted c0)).
  - pose proof (rehash_and_grow_sim h x t Ho Hc) as Hg. unfold sim0 in Hg.
    destruct (rehash_and_grow_if_necessary hash E t) as [t1| | | |]; cbn [rbind]; auto; [|rewrite Hg; reflexivity].
    destruct Hg as (h1 & x1 & -> & Ho1 & Hs1). cbn [rbind]. pose proof Ho1 as (I1 & I2 & I3 & I4 & _).
    rewrite I1, I3. destruct (find_first_non_full E (t_ctrl t1) (t_cap t1) hv) as [p| | | |]; cbn [rbind]; auto.
    destruct (load (t_ctrl t1) p) as [c| | | |] eqn:Hl; cbn [rbind]; auto.
    rewrite I1, Hl. reflexivity.
  - cbn [rbind]. destruct (load (t_ctrl t) p0) as [c| | | |] eqn:Hl; cbn [rbind]; auto using step_refl.
    rewrite H1, Hl. reflexivity.
Qed.
Lemma construct_some (sl sl' : list (option elt)) i e : construct sl i e = Ok sl' -> sl <> [].
Proof. intros H ->. unfold construct, load in H. cbn in H. discriminate. Qed.
Lemma owns_nonzero h x t : owns h x t -> t_slots t <> [] -> o_cap x <> 0.
Proof. intros (_ & _ & _ & _ & H & _) Hn H0. auto. Qed.

Lemma finish_sim h x (t : table) p e : owns h x t -> sim0 h x (finish_insert hash E t p e) (finish_insert_h hash E h x p e).
Proof.
  intros Ho. pose proof Ho as (H1 & H2' & H3 & H4 & H5 & H6). unfold sim0, finish_insert, finish_insert_h.
  destruct (construct (t_slots t) p e) as [sl'| | | |] eqn:Hc; cbn [rbind]; auto.
  2:{ exfalso. eapply nba_construct, Hc. }
  assert (H0 : o_cap x <> 0) by (eapply owns_nonzero; eauto using construct_some).
  rewrite (hconstruct_eq _ _ _ _ (H6 H0) _ _ _ Hc). cbn [rbind]. rewrite H1, H3.
  destruct (set_ctrl E (t_ctrl t) (t_cap t) p (H2 (hash (fst e)))) as [c'| | | |]; cbn [rbind]; auto.
  eexists _, _. split; [reflexivity|]. rewrite H2', H4, <- H3. split.
  - pose proof (owns_upd h x t sl' c' (t_size t) (t_growth t) Ho H0) as Hu. rewrite <- H3 in Hu. exact Hu.
  - apply step_own; [assumption|reflexivity|reflexivity].
Qed.

Lemma emplace_sim h x (t : table) k v : owns h x t -> clean t ->
  sim2 h x (emplace hash eqb E t k v) (emplace_h hash eqb E h x k v).
Proof.
  intros Ho Hc. unfold sim2, emplace, emplace_h. rewrite (view_ok _ _ _ Ho). cbn [rbind].
  destruct (find_key hash eqb E t k) as [[p|]| | | |]; cbn [rbind]; auto.
  - exists h, x. auto using step_refl.
  - pose proof (prepare_sim h x t (hash k) Ho Hc) as Hp. unfold sim1 in Hp.
    destruct (prepare_insert hash E t (hash k)) as [[t1 p]| | | |]; cbn [rbind]; auto; [|rewrite Hp; reflexivity].
    destruct Hp as (h1 & x1 & -> & Ho1 & Hs1). cbn [rbind].
    pose proof (finish_sim h1 x1 t1 p (k, v) Ho1) as Hf. unfold sim0 in Hf.
    destruct (finish_insert hash E t1 p (k, v)) as [t2| | | |]; cbn [rbind]; auto; [|rewrite Hf; reflexivity].
    destruct Hf as (h2 & x2 & -> & Ho2 & Hs2). cbn [rbind]. exists h2, x2. eauto using step_trans.
Qed.

Lemma assign_sim h x (t : table) p v : owns h x t ->
  match assign_at t p v with
  | Ok t' => exists h', assign_at_h h x p v = Ok h' /\ owns h' x t' /\ step h x h' x
  | BadAlloc => False
  | _ => True
  end.
Proof.
  intros Ho. pose proof Ho as (H1 & H2' & H3 & H4 & H5 & H6). unfold assign_at, assign_at_h.
  destruct (load (t_slots t) p) as [s| | | |] eqn:Hl; cbn [rbind]; auto; [|eapply nba_load, Hl].
  destruct (of_option s) as [e| | | |] eqn:He; cbn [rbind]; auto; [|eapply nba_opt, He].
  destruct (store (t_slots t) p (Some (fst e, v))) as [sl'| | | |] eqn:Hst; cbn [rbind]; auto; [|eapply nba_store, Hst].
  assert (H0 : o_cap x <> 0).
  { intros H0. rewrite (H5 H0) in Hl. discriminate. }
  rewrite (hblock_eq _ _ _ _ (H6 H0)). cbn [rbind]. rewrite Hl. cbn [rbind]. rewrite He. cbn [rbind]. rewrite Hst. cbn [rbind].
  rewrite (hset_eq _ _ _ _ (H6 H0)). eexists. split; [reflexivity|]. split.
  - pose proof (owns_upd h x t sl' (t_ctrl t) (t_size t) (t_growth t) Ho H0) as Hu.
    rewrite <- H1, <- H2', <- H4 in *. destruct x; exact Hu.
  - apply step_own; [assumption|reflexivity|reflexivity].
Qed.

Lemma insert_or_assign_sim h x (t : table) k v : owns h x t -> clean t ->
  sim2 h x (insert_or_assign hash eqb E t k v) (insert_or_assign_h hash eqb E h x k v).
Proof.
  intros Ho Hc. pose proof (emplace_sim h x t k v Ho Hc) as He. unfold sim2, insert_or_assign, insert_or_assign_h in *.
  destruct (emplace hash eqb E t k v) as [[[t1 p] ins]| | | |]; cbn [rbind]; auto; [|rewrite He; reflexivity].
  destruct He as (h1 & x1 & -> & Ho1 & Hs1). cbn [rbind]. destruct ins; [exists h1, x1; auto|].
  pose proof (assign_sim h1 x1 t1 p v Ho1) as Ha. destruct (assign_at t1 p v) as [t2| | | |]; cbn [rbind]; auto; [|contradiction].
  destruct Ha as (h2 & -> & Ho2 & Hs2). cbn [rbind]. exists h2, x1. eauto using step_trans.
Qed.

(** ** Erasure *)
Lemma erase_meta_slots c (sl : list (option elt)) sz cap gr i :
  erase_meta_only E (mkTable c sl sz cap gr) i =
  let* t := erase_meta_only E (mkTable c (@nil (option elt)) sz cap gr) i in Ok (mkTable (t_ctrl t) sl (t_size t) cap (t_growth t)).
Proof.
  unfold erase_meta_only. cbn [t_ctrl t_cap t_size t_slots t_growth].
  destruct (load c i) as [z| | | |]; cbn [rbind]; auto. destruct (IsFull z); auto.
  destruct (window E c i) as [wa| | | |]; cbn [rbind]; auto.
  destruct (window E c (sub_and i W cap)) as [wb| | | |]; cbn [rbind]; auto.
  destruct (set_ctrl E c cap i _) as [c'| | | |]; cbn [rbind]; auto.
Qed.
Lemma erase_at_sim h x (t : table) i : owns h x t ->
  match erase_at E t i with
  | Ok (e, t') => exists h' x', erase_at_h E h x i = Ok (e, h', x') /\ owns h' x' t' /\ step h x h' x' /\ o_cap x' = o_cap x
  | _ => True
  end.
Proof.
  intros Ho. pose proof Ho as (H1 & H2' & H3 & H4 & H5 & H6). unfold erase_at, erase_at_h, erase_meta_only_h.
  destruct (take_slot (t_slots t) i) as [[e sl]| | | |] eqn:Ht; cbn [rbind]; auto.
  assert (H0 : o_cap x <> 0).
  { intros H0. rewrite (H5 H0) in Ht. discriminate. }
  rewrite (htake_eq _ _ _ _ (H6 H0) _ _ _ Ht). cbn [rbind]. rewrite H1, H2', H3, H4. rewrite (erase_meta_slots _ sl).
  destruct (erase_meta_only E _ i) as [t'| | | |]; cbn [rbind]; auto.
  eexists _, _. split; [reflexivity|]. split.
  - pose proof (owns_upd h x t sl (t_ctrl t') (t_size t') (t_growth t') Ho H0) as Hu. rewrite <- H3 in *. exact Hu.
  - split; [|cbn; auto]. apply step_own; [assumption|reflexivity|cbn; congruence].
Qed.
Lemma erase_key_sim h x (t : table) k : owns h x t ->
  match erase_key hash eqb E t k with
  | Ok (e, t') => exists h' x', erase_key_h hash eqb E h x k = Ok (e, h', x') /\ owns h' x' t' /\ step h x h' x'
  | _ => True
  end.
Proof.
  intros Ho. unfold erase_key, erase_key_h. rewrite (view_ok _ _ _ Ho). cbn [rbind].
  destruct (find_key hash eqb E t k) as [[p|]| | | |]; cbn [rbind]; auto.
  - pose proof (erase_at_sim h x t p Ho) as He. destruct (erase_at E t p) as [[e t']| | | |]; cbn [rbind]; auto.
    destruct He as (h' & x' & -> & Ho' & Hs & _). cbn [rbind]. eauto.
  - exists h, x. auto using step_refl.
Qed.

(** ** Destruction *)
Lemma destroy_loop_ok ctrl b sz : forall is h (sl : list (option elt)),
  NoDup is -> h !! b = Some (Some (sz, sl)) ->
  (forall i, In i is -> exists c s, ctrl !! i = Some c /\ sl !! i = Some s /\ IsFull c = negb (is_raw s)) ->
  exists sl', destroy_loop is ctrl b h = Ok (<[b := Some (sz, sl')]> h) /\ length sl' = length sl /\
    (forall i, In i is -> sl' !! i = Some None) /\ (forall i, ~ In i is -> sl' !! i = sl !! i).
Proof.
  induction is as [|i is IH]; intros h sl Hnd Hb Hcl; cbn [destroy_loop].
  - exists sl. rewrite (hsame _ _ _ _ Hb). repeat split; auto. intros i [].
  - inversion Hnd as [|? ? Hni Hnd']; subst. rewrite elem_of_list_In in Hni.
    destruct (Hcl i (or_introl eq_refl)) as (c & s & Hc & Hs & Hf). rewrite (load_some _ _ _ Hc). cbn [rbind].
    rewrite Hf. destruct s as [e|]; cbn [is_raw negb].
    + assert (Ht : take_slot sl i = Ok (e, <[i := None]> sl)).
      { unfold take_slot. rewrite (load_some _ _ _ Hs). cbn [rbind]. rewrite store_ok; [reflexivity|]. apply lookup_lt_is_Some; eauto. }
      rewrite (htake_eq _ _ _ _ Hb _ _ _ Ht). cbn [rbind].
      destruct (IH (<[b := Some (sz, <[i := None]> sl)]> h) (<[i := None]> sl) Hnd') as (sl' & G1 & G2 & G3 & G4).
      { eapply hlook, Hb. }
      { intros j Hj. rewrite list_lookup_insert_ne by (intros ->; contradiction). apply Hcl. right. assumption. }
      exists sl'. rewrite G1, list_insert_insert. split; [reflexivity|]. split; [rewrite G2; apply insert_length|]. split.
      * intros j [<-|Hj]; [|auto]. rewrite G4 by assumption. apply list_lookup_insert. apply lookup_lt_is_Some; eauto.
      * intros j Hj. cbn in Hj. rewrite G4 by tauto. apply list_lookup_insert_ne. tauto.
    + destruct (IH h sl Hnd' Hb) as (sl' & G1 & G2 & G3 & G4); [intros j Hj; apply Hcl; right; assumption|].
      exists sl'. split; [assumption|]. split; [assumption|]. split.
      * intros j [<-|Hj]; [|auto]. rewrite G4 by assumption. assumption.
      * intros j Hj. cbn in Hj. apply G4. tauto.
Qed.
Lemma destroy_all_slots h x (t : table) : owns h x t -> clean t -> o_cap x <> 0 ->
  destroy_loop (seq 0 (o_cap x)) (o_ctrl x) (o_blk x) h =
    Ok (<[o_blk x := Some (alloc_size E (N.of_nat (o_cap x)), replicate (o_cap x) None)]> h).
Proof.
  intros (H1 & H2' & H3 & H4 & H5 & H6) [Hl Hcl] H0.
  destruct (destroy_loop_ok (o_ctrl x) (o_blk x) (alloc_size E (N.of_nat (o_cap x))) (seq 0 (o_cap x)) h (t_slots t))
    as (sl' & G1 & G2 & G3 & G4); auto.
  - apply NoDup_ListNoDup, seq_NoDup.
  - intros i Hi. apply in_seq in Hi. rewrite H1. apply Hcl. lia.
  - rewrite G1. do 4 f_equal. apply all_raw; [congruence|]. intros i Hi. apply G3, in_seq. lia.
Qed.
Lemma clear_sim h x (t : table) : owns h x t -> clean t -> sim0 h x (clear E t) (clear_h E h x).
Proof.
  intros Ho Hcl. pose proof Ho as (H1 & H2' & H3 & H4 & H5 & H6). unfold sim0, clear, clear_h. rewrite H2', H3.
  destruct (t_size t =? 0); [exists h, x; auto using step_refl|].
  destruct (Nat.eqb_spec (t_cap t) 0) as [H0|H0]; [exists h, x; auto using step_refl|].
  rewrite <- H3 in H0. rewrite <- H3. rewrite (destroy_all_slots h x t Ho Hcl H0). cbn [rbind]. rewrite H1.
  destruct (load (t_ctrl t) (o_cap x + W)) as [c| | | |]; cbn [rbind]; auto.
  eexists _, _. split; [reflexivity|]. split.
  - pose proof (owns_upd h x t (replicate (o_cap x) None) (reset_ctrl E c (o_cap x)) 0 (growth_left_for E (o_cap x) 0) Ho H0) as Hu.
    rewrite <- H3 in Hu. exact Hu.
  - apply step_own; [assumption|reflexivity|reflexivity].
Qed.
(* ~raw_hash_set: no undefined behaviour, and the block of the table is given back *)
Lemma destroy_slots_ok h x (t : table) : owns h x t -> clean t ->
  exists h' x', destroy_slots_h E h x = Ok (h', x') /\ step h x h' empty_obj /\ (o_cap x <> 0 -> x' = empty_obj).
Proof.
  intros Ho Hcl. pose proof Ho as (H1 & H2' & H3 & H4 & H5 & H6). unfold destroy_slots_h.
  assert (Hme : forall b, ~ mine empty_obj b) by (intros b [Hb _]; apply Hb; reflexivity).
  destruct (Nat.eqb_spec (o_cap x) 0) as [H0|H0].
  - exists h, x. split; [reflexivity|]. split; [|contradiction]. split; [lia|]. split; [auto|].
    intros b Hb [[Hm _]|Hge] _; [contradiction|lia].
  - rewrite (destroy_all_slots h x t Ho Hcl H0). cbn [rbind].
    rewrite (hfree_eq _ _ _ _ (hlook _ _ _ _ (H6 H0) _)) by apply in_replicate. cbn [rbind]. rewrite list_insert_insert.
    exists (<[o_blk x := None]> h), empty_obj. split; [reflexivity|]. split; [|auto].
    pose proof (hb_len _ _ _ _ (H6 H0)) as Hl. split; [rewrite insert_length; lia|]. split.
    + intros b Hb Hn. split; [|auto]. apply list_lookup_insert_ne. intros Heq. apply Hn. split; assumption.
    + intros b Hb [[_ <-]|Hge] _; [apply list_lookup_insert; assumption|]. rewrite insert_length in Hb. lia.
Qed.

(** ** rehash, reserve *)
Lemma normalize_nonzero n : N.to_nat (NormalizeCapacity n) <> 0.
Proof.
  destruct (N.lt_ge_cases n (2 ^ 64)) as [Hn|Hn].
  - destruct (normalize_ge n Hn). lia.
  - unfold NormalizeCapacity. destruct (N.eqb_spec n 0) as [->|H0]; [lia|].
    assert (Hs : clz 64 n = 0%N).
    { unfold clz. rewrite N.size_log2 by assumption. apply N.log2_le_pow2 in Hn; lia. }
    rewrite Hs, N.shiftr_0_r. discriminate.
Qed.
Lemma rehash_sim h x (t : table) n : owns h x t -> clean t -> sim0 h x (rehash hash E t n) (rehash_h hash E h x n).
Proof.
  intros Ho Hcl. pose proof Ho as (H1 & H2' & H3 & H4 & H5 & H6). unfold rehash, rehash_h. rewrite H2', H3.
  destruct ((n =? 0)%N && (t_cap t =? 0)) eqn:Hz; [exists h, x; auto using step_refl|].
  destruct ((n =? 0)%N && (t_size t =? 0)) eqn:Hz2.
  - destruct (destroy_slots_ok h x t Ho Hcl) as (h' & x' & G1 & G2 & G3). unfold sim0. exists h', empty_obj.
    assert (H0 : o_cap x <> 0).
    { apply andb_prop in Hz2 as [Hn _]. rewrite Hn in Hz. cbn [andb] in Hz. apply Nat.eqb_neq in Hz. congruence. }
    rewrite G1, (G3 H0). auto using owns_empty.
  - destruct ((n =? 0)%N || _); [|exists h, x; auto using step_refl].
    apply resize_sim; auto. apply normalize_nonzero.
Qed.
Lemma reserve_sim h x (t : table) n : owns h x t -> clean t -> sim0 h x (reserve hash E t n) (reserve_h hash E h x n).
Proof.
  intros Ho Hcl. unfold reserve, reserve_h, sim0.
  destruct (GrowthToLowerboundCapacity W n); cbn [rbind]; auto. apply rehash_sim; assumption.
Qed.

(** ** Copy *)
Lemma copy_loop_sim l : forall h x (t : table), owns h x t -> sim0 h x (copy_loop hash E l t) (copy_loop_h hash E l h x).
Proof.
  induction l as [|e l IH]; intros h x t Ho; cbn [copy_loop copy_loop_h]; [exists h, x; auto using step_refl|].
  pose proof Ho as (H1 & H2' & H3 & H4 & H5 & H6). unfold sim0. rewrite H1, H3.
  destruct (find_first_non_full E (t_ctrl t) (t_cap t) (hash (fst e))) as [p| | | |]; cbn [rbind]; auto.
  destruct (set_ctrl E (t_ctrl t) (t_cap t) p (H2 (hash (fst e)))) as [c'| | | |]; cbn [rbind]; auto.
  destruct (construct (t_slots t) p e) as [sl'| | | |] eqn:Hc; cbn [rbind]; auto.
  2:{ exfalso. eapply nba_construct, Hc. }
  assert (H0 : o_cap x <> 0) by (eapply owns_nonzero; eauto using construct_some).
  rewrite (hconstruct_eq _ _ _ _ (H6 H0) _ _ _ Hc). cbn [rbind].
  pose proof (owns_upd h x t sl' c' (t_size t) (t_growth t) Ho H0) as Hu. rewrite H2', H4, <- H3. rewrite <- H3 in Hu.
  specialize (IH _ _ _ Hu). unfold sim0 in IH.
  destruct (copy_loop hash E l _) as [t'| | | |]; auto. destruct IH as (h' & x' & G1 & G2 & G3).
  exists h', x'. split; [assumption|]. split; [assumption|]. eapply step_trans; [|exact G3].
  apply step_own; [assumption|reflexivity|reflexivity].
Qed.
Lemma owns_frame h x t y h' x' : owns h x t -> step h y h' x' -> (forall b, mine x b -> ~ mine y b) -> owns h' x t.
Proof.
  intros (H1 & H2' & H3 & H4 & H5 & H6) (L & F & G) Hd. repeat split; auto. intros H0.
  pose proof (H6 H0) as Hb. destruct (F (o_blk x)) as [-> _]; [eapply hb_len, Hb|apply Hd; split; auto|assumption].
Qed.
Lemma copy_sim h y (t : table) : owns h y t ->
  sim0 h empty_obj (copy hash E t) (copy_h hash E h y).
Proof.
  intros Ho. pose proof Ho as (H1 & H2' & H3 & H4 & H5 & H6). unfold copy, copy_h, sim0. rewrite H3.
  assert (Hce : clean (@empty_table K V)) by (split; [reflexivity|intros i Hi; cbn in Hi; lia]).
  pose proof (rehash_sim h empty_obj empty_table (N.of_nat (t_cap t)) (owns_empty h) Hce) as Hr. unfold sim0 in Hr.
  destruct (rehash hash E empty_table (N.of_nat (t_cap t))) as [t0| | | |]; cbn [rbind]; auto; [|rewrite Hr; reflexivity].
  destruct Hr as (h0 & x0 & -> & Ho0 & Hs0). cbn [rbind].
  assert (Hoy : owns h0 y t).
  { eapply owns_frame; [exact Ho|exact Hs0|]. intros b _ [Hm _]. apply Hm. reflexivity. }
  rewrite (view_ok _ _ _ Hoy). cbn [rbind].
  destruct (to_list E t) as [l| | | |]; cbn [rbind]; auto.
  pose proof (copy_loop_sim l h0 x0 t0 Ho0) as Hc. unfold sim0 in Hc.
  destruct (copy_loop hash E l t0) as [t1| | | |]; cbn [rbind]; auto; [|rewrite Hc; reflexivity].
  destruct Hc as (h1 & x1 & -> & Ho1 & Hs1). cbn [rbind]. eexists _, _. split; [reflexivity|].
  pose proof Ho1 as (I1 & I2 & I3 & I4 & I5 & I6). split.
  - repeat split; cbn; try congruence; auto.
  - eapply step_trans; [exact Hs0|]. eapply step_trans; [exact Hs1|]. apply step_fields; reflexivity.
Qed.

(** ** Calls on one table *)
Lemma exec_sim h x (t : table) o : owns h x t -> clean t ->
  match exec hash eqb E t o with
  | Ok (t', r) => exists h' x', exec_h hash eqb E h x o = Ok (h', x', r) /\ owns h' x' t' /\ step h x h' x'
  | _ => True
  end.
Proof.
  intros Ho Hc. destruct o as [k v|k v|k|k| |n|n| |]; cbn [exec exec_h].
  - pose proof (emplace_sim h x t k v Ho Hc) as He. unfold sim2 in He.
    destruct (emplace hash eqb E t k v) as [[[t1 p] b]| | | |]; cbn [rbind catch]; auto.
    + destruct He as (h1 & x1 & -> & Ho1 & Hs1). cbn [rbind]. rewrite (view_ok _ _ _ Ho1). cbn [rbind].
      destruct (deref t1 p) as [e| | | |]; cbn [rbind catch catch_h]; auto; [eauto 6|exists h, x; auto using step_refl].
    + rewrite He. exists h, x. auto using step_refl.
  - pose proof (insert_or_assign_sim h x t k v Ho Hc) as He. unfold sim2 in He.
    destruct (insert_or_assign hash eqb E t k v) as [[[t1 p] b]| | | |]; cbn [rbind catch]; auto.
    + destruct He as (h1 & x1 & -> & Ho1 & Hs1). cbn [rbind]. rewrite (view_ok _ _ _ Ho1). cbn [rbind].
      destruct (deref t1 p) as [e| | | |]; cbn [rbind catch catch_h]; auto; [eauto 6|exists h, x; auto using step_refl].
    + rewrite He. exists h, x. auto using step_refl.
  - rewrite (view_ok _ _ _ Ho). cbn [rbind]. destruct (find_key hash eqb E t k) as [[p|]| | | |]; cbn [rbind]; auto.
    + destruct (deref t p); cbn [rbind]; auto. exists h, x. auto using step_refl.
    + exists h, x. auto using step_refl.
  - pose proof (erase_key_sim h x t k Ho) as He. destruct (erase_key hash eqb E t k) as [[e t']| | | |]; cbn [rbind]; auto.
    destruct He as (h' & x' & -> & ? & ?). cbn [rbind]. eauto.
  - pose proof (clear_sim h x t Ho Hc) as He. unfold sim0 in He. destruct (clear E t) as [t'| | | |]; cbn [rbind]; auto.
    destruct He as (h' & x' & -> & ? & ?). cbn [rbind]. eauto.
  - pose proof (rehash_sim h x t n Ho Hc) as He. unfold sim0 in He. destruct (rehash hash E t n) as [t'| | | |]; cbn [rbind catch]; auto.
    + destruct He as (h' & x' & -> & ? & ?). cbn [rbind catch_h]. eauto.
    + rewrite He. exists h, x. auto using step_refl.
  - pose proof (reserve_sim h x t n Ho Hc) as He. unfold sim0 in He. destruct (reserve hash E t n) as [t'| | | |]; cbn [rbind catch]; auto.
    + destruct He as (h' & x' & -> & ? & ?). cbn [rbind catch_h]. eauto.
    + rewrite He. exists h, x. auto using step_refl.
  - pose proof Ho as (_ & H2' & _). rewrite H2'. exists h, x. auto using step_refl.
  - rewrite (view_ok _ _ _ Ho). cbn [rbind]. destruct (to_list E t); cbn [rbind]; auto. exists h, x. auto using step_refl.
Qed.

(** ** All tables together: every block is owned by exactly one table *)
Definition Inv (h : heap) (xs : list obj) (ts : list table) : Prop :=
  Forall2 (owns h) xs ts /\
  (forall i j x y b, xs !! i = Some x -> xs !! j = Some y -> mine x b -> mine y b -> i = j) /\
  (forall b, b < length h -> h !! b = Some None \/ exists i x, xs !! i = Some x /\ mine x b).

Lemma mine_lt h x t b : owns h x t -> mine x b -> b < length h.
Proof. intros (_ & _ & _ & _ & _ & H6) [H0 <-]. eapply hb_len, H6, H0. Qed.
Lemma Inv_look h xs ts i x : Inv h xs ts -> xs !! i = Some x -> exists t, ts !! i = Some t /\ owns h x t.
Proof. intros (HF & _) Hx. eapply Forall2_lookup_l; eassumption. Qed.
Lemma Inv_look_r h xs ts i t : Inv h xs ts -> ts !! i = Some t -> exists x, xs !! i = Some x /\ owns h x t.
Proof. intros (HF & _) Ht. eapply Forall2_lookup_r; eassumption. Qed.

Lemma Inv_step h xs ts i x h' x' t' : Inv h xs ts -> xs !! i = Some x -> step h x h' x' -> owns h' x' t' ->
  Inv h' (<[i := x']> xs) (<[i := t']> ts).
Proof.
  intros HI Hx Hs Ho'. pose proof HI as (HF & HD & HC). pose proof Hs as (L & F & G).
  assert (Hi : i < length xs) by (apply lookup_lt_is_Some; eauto).
  assert (Hother : forall j y, j <> i -> xs !! j = Some y -> forall b, mine y b -> ~ mine x b).
  { intros j y Hj Hy b M1 M2. apply Hj. eapply HD; eassumption. }
  assert (Hold : forall j y b, xs !! j = Some y -> mine y b -> b < length h).
  { intros j y b Hy M. destruct (Inv_look _ _ _ _ _ HI Hy) as (t & _ & Ho). eapply mine_lt; eassumption. }
  split; [|split].
  - apply Forall2_same_length_lookup_2.
    + rewrite !insert_length. eapply Forall2_length, HF.
    + intros j y t Hy Ht. destruct (Nat.eq_dec i j) as [<-|Hne].
      * rewrite list_lookup_insert in Hy by assumption.
        rewrite list_lookup_insert in Ht by (rewrite <- (Forall2_length _ _ _ HF); assumption). congruence.
      * rewrite list_lookup_insert_ne in Hy by assumption. rewrite list_lookup_insert_ne in Ht by assumption.
        destruct (Inv_look _ _ _ _ _ HI Hy) as (t0 & Ht0 & Ho). assert (t0 = t) by congruence. subst t0.
        eapply owns_frame; [exact Ho|exact Hs|]. eapply Hother; eauto.
  - assert (Hcross : forall j y b, j <> i -> xs !! j = Some y -> mine y b -> ~ mine x' b).
    { intros j y b Hj Hy M. apply (F b); [eapply Hold; eassumption|eapply Hother; eassumption]. }
    intros j k y z b Hy Hz My Mz. destruct (Nat.eq_dec i j) as [<-|Hj]; destruct (Nat.eq_dec i k) as [<-|Hk]; auto.
    + rewrite list_lookup_insert in Hy by assumption. injection Hy as <-.
      rewrite list_lookup_insert_ne in Hz by assumption. exfalso. eapply Hcross; eauto.
    + rewrite list_lookup_insert in Hz by assumption. injection Hz as <-.
      rewrite list_lookup_insert_ne in Hy by assumption. exfalso. eapply Hcross; eauto.
    + rewrite list_lookup_insert_ne in Hy by assumption. rewrite list_lookup_insert_ne in Hz by assumption. eapply HD; eassumption.
  - intros b Hb. destruct (mine_dec x' b) as [M|M].
    { right. exists i, x'. split; [apply list_lookup_insert; assumption|assumption]. }
    destruct (mine_dec x b) as [Mx|Mx]; [left; apply G; auto|].
    destruct (Nat.lt_ge_cases b (length h)) as [Hlt|Hge]; [|left; apply G; auto].
    destruct (F b Hlt Mx) as [-> _]. destruct (HC b Hlt) as [|(j & y & Hy & My)]; [left; assumption|].
    right. exists j, y. split; [|assumption]. rewrite list_lookup_insert_ne; [assumption|]. intros <-. congruence.
Qed.

Lemma Inv_swap h xs ts i j x y t u : Inv h xs ts -> xs !! i = Some x -> xs !! j = Some y -> ts !! i = Some t -> ts !! j = Some u ->
  Inv h (<[i := y]> (<[j := x]> xs)) (<[i := u]> (<[j := t]> ts)).
Proof.
  intros HI Hx Hy Ht Hu. pose proof HI as (HF & HD & HC).
  assert (Hi : i < length xs) by (apply lookup_lt_is_Some; eauto).
  assert (Hj : j < length xs) by (apply lookup_lt_is_Some; eauto).
  set (s := fun k => if k =? i then j else if k =? j then i else k).
  assert (Hs : forall A (l : list A) a b, l !! i = Some a -> l !! j = Some b -> forall k, (<[i := b]> (<[j := a]> l)) !! k = l !! s k).
  { intros A l a b Ha Hb k. unfold s. destruct (Nat.eqb_spec k i) as [->|Hki].
    - rewrite list_lookup_insert by (rewrite insert_length; apply lookup_lt_is_Some; eauto). auto.
    - rewrite list_lookup_insert_ne by auto. destruct (Nat.eqb_spec k j) as [->|Hkj].
      + rewrite list_lookup_insert by (apply lookup_lt_is_Some; eauto). auto.
      + apply list_lookup_insert_ne. auto. }
  assert (Hss : forall k, s (s k) = k).
  { intros k. unfold s. destruct (Nat.eqb_spec k i) as [->|Hki].
    - destruct (Nat.eqb_spec j i) as [->|]; [auto|]. rewrite Nat.eqb_refl. auto.
    - destruct (Nat.eqb_spec k j) as [->|Hkj].
      + rewrite Nat.eqb_refl. auto.
      + apply Nat.eqb_neq in Hki, Hkj. rewrite Hki, Hkj. auto. }
  split; [|split].
  - apply Forall2_same_length_lookup_2; [rewrite !insert_length; eapply Forall2_length, HF|].
    intros k z v Hz Hv. rewrite (Hs _ xs x y Hx Hy) in Hz. rewrite (Hs _ ts t u Ht Hu) in Hv.
    eapply Forall2_lookup_lr; eassumption.
  - intros k l z v b Hz Hv Mz Mv. rewrite (Hs _ xs x y Hx Hy) in Hz. rewrite (Hs _ xs x y Hx Hy) in Hv. rewrite <- (Hss k), <- (Hss l). f_equal. eapply HD; eassumption.
  - intros b Hb. destruct (HC b Hb) as [|(k & z & Hz & Mz)]; [left; assumption|]. right. exists (s k), z.
    rewrite (Hs _ xs x y Hx Hy), Hss. auto.
Qed.
Lemma not_mine_empty b : ~ mine empty_obj b.
Proof. intros [H _]. apply H. reflexivity. Qed.
Lemma Inv_app_empty h xs ts : Inv h xs ts -> Inv h (xs ++ [empty_obj]) (ts ++ [empty_table]).
Proof.
  intros (HF & HD & HC). split; [|split].
  - apply Forall2_app; [assumption|]. constructor; [apply owns_empty|constructor].
  - assert (Hl : forall i x b, (xs ++ [empty_obj]) !! i = Some x -> mine x b -> xs !! i = Some x).
    { intros i x b Hx M. apply lookup_app_Some in Hx as [Hx|[_ Hx]]; [assumption|].
      apply list_lookup_singleton_Some in Hx as [_ <-]. exfalso. eapply not_mine_empty, M. }
    intros i j x y b Hx Hy Mx My. eapply HD; eauto.
  - intros b Hb. destruct (HC b Hb) as [|(k & z & Hz & Mz)]; [left; assumption|]. right. exists k, z.
    split; [|assumption]. apply lookup_app_l_Some. assumption.
Qed.
Lemma Inv_drop_last h xs ts x t : Inv h (xs ++ [x]) (ts ++ [t]) -> (forall b, ~ mine x b) -> length xs = length ts -> Inv h xs ts.
Proof.
  intros (HF & HD & HC) Hx Hl. split; [|split].
  - apply Forall2_app_inv in HF as [H _]; assumption.
  - intros i j y z b Hy Hz. apply HD; apply lookup_app_l_Some; assumption.
  - intros b Hb. destruct (HC b Hb) as [|(k & z & Hz & Mz)]; [left; assumption|]. right.
    apply lookup_app_Some in Hz as [Hz|[_ Hz]]; [eauto|].
    apply list_lookup_singleton_Some in Hz as [_ <-]. exfalso. eapply Hx, Mz.
Qed.
Lemma Inv_tail h x xs t ts : Inv h (x :: xs) (t :: ts) -> (forall b, ~ mine x b) -> Inv h xs ts.
Proof.
  intros (HF & HD & HC) Hx. split; [|split].
  - inversion HF; assumption.
  - intros i j y z b Hy Hz Mx My. specialize (HD (S i) (S j) y z b Hy Hz Mx My). congruence.
  - intros b Hb. destruct (HC b Hb) as [|([|k] & z & Hz & Mz)]; [left; assumption| |right; eauto].
    injection Hz as <-. exfalso. eapply Hx, Mz.
Qed.

(** destroying every table gives back every block *)
Lemma destroy_all_ok : forall xs h (ts : list table), Inv h xs ts -> Forall clean ts ->
  exists h', destroy_all E h xs = Ok h' /\ length h' = length h /\ forall b, b < length h' -> h' !! b = Some None.
Proof.
  induction xs as [|x xs IH]; intros h ts HI HC; cbn [destroy_all].
  - exists h. split; [reflexivity|]. split; [reflexivity|]. intros b Hb. destruct HI as (_ & _ & Hcov).
    destruct (Hcov b Hb) as [|(i & x & Hx & _)]; [assumption|discriminate].
  - pose proof HI as (HF & _). inversion HF as [|? t ? ts' Ho HF']; subst. inversion HC as [|? ? Hc HC']; subst.
    destruct (destroy_slots_ok h x t Ho Hc) as (h1 & x1 & G1 & G2 & _). rewrite G1. cbn [rbind].
    assert (HI1 : Inv h1 (<[0 := empty_obj]> (x :: xs)) (<[0 := empty_table]> (t :: ts'))).
    { eapply Inv_step; [exact HI|reflexivity|exact G2|apply owns_empty]. }
    destruct (IH h1 ts') as (h' & G & Hl & Hn); [|assumption|].
    { eapply Inv_tail; [exact HI1|apply not_mine_empty]. }
    assert (Hl1 : length h1 = length h).
    { unfold destroy_slots_h in G1. destruct (Nat.eqb_spec (o_cap x) 0) as [|H0]; [congruence|].
      rewrite (destroy_all_slots h x t Ho Hc H0) in G1. cbn [rbind] in G1. pose proof Ho as (_ & _ & _ & _ & _ & H6).
      rewrite (hfree_eq _ _ _ _ (hlook _ _ _ _ (H6 H0) _)) in G1 by apply in_replicate. cbn [rbind] in G1.
      injection G1 as <- _. rewrite !insert_length. reflexivity. }
    exists h'. split; [assumption|]. split; [congruence|assumption].
Qed.

(** ** erase_if *)
Lemma erase_if_loop_sim p f : forall h x (t : table) i, owns h x t ->
  match erase_if_loop E f p t i with
  | Ok (t', seen) => exists h' x', erase_if_loop_h E f p h x i = Ok (h', x', seen) /\ owns h' x' t' /\ step h x h' x'
  | _ => True
  end.
Proof.
  induction f as [|f IH]; intros h x t i Ho; cbn [erase_if_loop erase_if_loop_h]; [exact I|].
  pose proof Ho as (_ & _ & H3 & _). rewrite H3. destruct (i =? t_cap t); [exists h, x; auto using step_refl|].
  rewrite (view_ok _ _ _ Ho). cbn [rbind].
  destruct (deref t i) as [e| | | |]; cbn [rbind]; auto. destruct (next_it E t i) as [j| | | |]; cbn [rbind]; auto.
  assert (Hgo : forall h1 x1 t1, owns h1 x1 t1 -> step h x h1 x1 ->
    match (let* (t2, seen) := erase_if_loop E f p t1 j in Ok (t2, e :: seen)) with
    | Ok (t', seen) => exists h' x', (let* (h2, x2, seen) := erase_if_loop_h E f p h1 x1 j in Ok (h2, x2, e :: seen)) = Ok (h', x', seen) /\
        owns h' x' t' /\ step h x h' x'
    | _ => True
    end).
  { intros h1 x1 t1 Ho1 Hs1. specialize (IH h1 x1 t1 j Ho1). destruct (erase_if_loop E f p t1 j) as [[t2 seen]| | | |]; cbn [rbind]; auto.
    destruct IH as (h' & x' & -> & Ho' & Hs'). cbn [rbind]. exists h', x'. eauto using step_trans. }
  destruct (p e); cbn [rbind]; [|apply Hgo; auto using step_refl].
  pose proof (erase_at_sim h x t i Ho) as He. destruct (erase_at E t i) as [[e' t']| | | |]; cbn [rbind]; auto.
  destruct He as (h' & x' & -> & Ho' & Hs' & _). cbn [rbind]. apply Hgo; assumption.
Qed.
Lemma erase_if_sim p h x (t : table) : owns h x t ->
  match erase_if E p t with
  | Ok (t', c, seen) => exists h' x', erase_if_h E p h x = Ok (h', x', c, seen) /\ owns h' x' t' /\ step h x h' x'
  | _ => True
  end.
Proof.
  intros Ho. unfold erase_if, erase_if_h. rewrite (view_ok _ _ _ Ho). cbn [rbind].
  pose proof Ho as (_ & H2' & H3 & _). rewrite H3.
  destruct (begin_it E t) as [i| | | |]; cbn [rbind]; auto. pose proof (erase_if_loop_sim p (S (t_cap t)) h x t i Ho) as Hl.
  destruct (erase_if_loop E (S (t_cap t)) p t i) as [[t' seen]| | | |]; cbn [rbind]; auto.
  destruct Hl as (h' & x' & -> & Ho' & Hs'). cbn [rbind]. pose proof Ho' as (_ & G2 & _). rewrite H2', G2. eauto.
Qed.

Section Several.
Context (eeq : elt -> elt -> bool) (HE : env_ok E) (HK : KeyOK hash eqb).
Notation good := (good hash eqb E).

Lemma emplace_good (t t' : table) k v p b : good t -> emplace hash eqb E t k v = Ok (t', p, b) -> good t'.
Proof.
  intros Hg He. destruct (exec_ok hash eqb E HE HK t (elems (t_slots t)) (OEmplace k v)) as (t1 & r & m' & Hx & _ & [HR _] & _).
  { split; [assumption|reflexivity]. } { exact I. }
  cbn [exec] in Hx. rewrite He in Hx. cbn [rbind] in Hx.
  destruct (deref t' p) as [e| | | |] eqn:Hd; cbn [rbind catch] in Hx; try discriminate.
  - injection Hx as <- _. assumption.
  - exfalso. unfold deref in Hd. revert Hd. apply nba_bind; [apply nba_load|]. intros. apply nba_opt.
Qed.

(** ** merge *)
Lemma ins4 {A} (l : list A) i j a b c d : i <> j -> <[i := a]> (<[j := b]> (<[i := c]> (<[j := d]> l))) = <[i := a]> (<[j := b]> l).
Proof. intros H. rewrite (list_insert_commute _ j i) by auto. rewrite !list_insert_insert. reflexivity. Qed.
Lemma merge_loop_sim i j f : i <> j -> forall h xs (ts : list table) dst src td tr k,
  Inv h xs ts -> xs !! i = Some dst -> xs !! j = Some src -> ts !! i = Some td -> ts !! j = Some tr -> good td ->
  match merge_loop hash eqb E f td tr k with
  | Ok (td', tr', b) => exists h' dst' src', merge_loop_h hash eqb E f h dst src k = Ok (h', dst', src', b) /\
      Inv h' (<[i := dst']> (<[j := src']> xs)) (<[i := td']> (<[j := tr']> ts))
  | _ => True
  end.
Proof.
  intros Hij. induction f as [|f IH]; intros h xs ts dst src td tr k HI Hd Hr Htd Htr Hg; cbn [merge_loop merge_loop_h]; [exact I|].
  destruct (Inv_look _ _ _ _ _ HI Hd) as (? & Ht1 & Hod). assert (x = td) by congruence. subst x. clear Ht1.
  destruct (Inv_look _ _ _ _ _ HI Hr) as (? & Ht1 & Hor). assert (x = tr) by congruence. subst x. clear Ht1.
  assert (Hsame : Inv h (<[i := dst]> (<[j := src]> xs)) (<[i := td]> (<[j := tr]> ts))).
  { rewrite (list_insert_id xs j src Hr), (list_insert_id xs i dst Hd), (list_insert_id ts j tr Htr), (list_insert_id ts i td Htd). assumption. }
  pose proof Hor as (_ & _ & H3 & _). rewrite H3. destruct (k =? t_cap tr); [eauto|].
  rewrite (view_ok _ _ _ Hor). cbn [rbind]. destruct (deref tr k) as [e| | | |]; cbn [rbind]; auto.
  pose proof (emplace_sim h dst td (fst e) (snd e) Hod (good_clean _ Hg)) as He. unfold sim2 in He.
  destruct (emplace hash eqb E td (fst e) (snd e)) as [[[td1 p] ins]| | | |] eqn:Hem; auto; [|rewrite He; eauto].
  destruct He as (h1 & dst1 & -> & Ho1 & Hs1). pose proof (emplace_good _ _ _ _ _ _ Hg Hem) as Hg1.
  assert (HI1 : Inv h1 (<[i := dst1]> xs) (<[i := td1]> ts)) by (eapply Inv_step; eassumption).
  assert (Hr1 : (<[i := dst1]> xs) !! j = Some src) by (rewrite list_lookup_insert_ne by assumption; assumption).
  assert (Htr1 : (<[i := td1]> ts) !! j = Some tr) by (rewrite list_lookup_insert_ne by assumption; assumption).
  destruct (Inv_look _ _ _ _ _ HI1 Hr1) as (? & Ht1 & Hor1). assert (x = tr) by congruence. subst x. clear Ht1.
  assert (Li : i < length xs) by (apply lookup_lt_is_Some; eauto). assert (Lj : j < length xs) by (apply lookup_lt_is_Some; eauto).
  assert (Mi : i < length ts) by (apply lookup_lt_is_Some; eauto). assert (Mj : j < length ts) by (apply lookup_lt_is_Some; eauto).
  assert (Hgo : forall h2 src2 tr2, owns h2 src2 tr2 -> step h1 src h2 src2 ->
    match (let* j0 := next_it E tr2 k in merge_loop hash eqb E f td1 tr2 j0) with
    | Ok (td', tr', b) => exists h' dst' src', (let* ts' := view h2 src2 in let* j0 := next_it E ts' k in merge_loop_h hash eqb E f h2 dst1 src2 j0) = Ok (h', dst', src', b) /\
        Inv h' (<[i := dst']> (<[j := src']> xs)) (<[i := td']> (<[j := tr']> ts))
    | _ => True
    end).
  { intros h2 src2 tr2 Ho2 Hs2. rewrite (view_ok _ _ _ Ho2). cbn [rbind].
    destruct (next_it E tr2 k) as [j0| | | |]; cbn [rbind]; auto.
    assert (HI2 : Inv h2 (<[j := src2]> (<[i := dst1]> xs)) (<[j := tr2]> (<[i := td1]> ts))) by (eapply Inv_step; eassumption).
    rewrite !(list_insert_commute _ j i) in HI2 by auto. specialize (IH h2 _ _ dst1 src2 td1 tr2 j0 HI2).
    destruct (merge_loop hash eqb E f td1 tr2 j0) as [[[td' tr'] b]| | | |]; auto.
    destruct IH as (h' & dst' & src' & G1 & G2).
    - apply list_lookup_insert. rewrite insert_length. assumption.
    - rewrite list_lookup_insert_ne by auto. apply list_lookup_insert. assumption.
    - apply list_lookup_insert. rewrite insert_length. assumption.
    - rewrite list_lookup_insert_ne by auto. apply list_lookup_insert. assumption.
    - assumption.
    - exists h', dst', src'. split; [assumption|].
      rewrite !(ins4 _ _ _ _ _ _ _ Hij) in G2. assumption. }
  destruct ins; cbn [rbind]; [|apply Hgo; auto using step_refl].
  pose proof (erase_at_sim h1 src tr k Hor1) as Hea. destruct (erase_at E tr k) as [[e' tr2]| | | |]; cbn [rbind]; auto.
  destruct Hea as (h2 & src2 & -> & Ho2 & Hs2 & _). cbn [rbind]. apply Hgo; assumption.
Qed.
Lemma merge_sim i j h xs (ts : list table) dst src td tr : i <> j ->
  Inv h xs ts -> xs !! i = Some dst -> xs !! j = Some src -> ts !! i = Some td -> ts !! j = Some tr -> good td ->
  match merge hash eqb E td tr with
  | Ok (td', tr', b) => exists h' dst' src', merge_h hash eqb E h dst src = Ok (h', dst', src', b) /\
      Inv h' (<[i := dst']> (<[j := src']> xs)) (<[i := td']> (<[j := tr']> ts))
  | _ => True
  end.
Proof.
  intros Hij HI Hd Hr Htd Htr Hg. destruct (Inv_look _ _ _ _ _ HI Hr) as (? & Ht1 & Hor). assert (x = tr) by congruence. subst x.
  unfold merge, merge_h. rewrite (view_ok _ _ _ Hor). cbn [rbind]. pose proof Hor as (_ & _ & H3 & _). rewrite H3.
  destruct (begin_it E tr) as [k| | | |]; cbn [rbind]; auto. eapply merge_loop_sim; eassumption.
Qed.

(** ** Calls on several tables *)
Lemma load_look {A} (l : list A) i x : load l i = Ok x -> l !! i = Some x.
Proof. unfold load. destruct (l !! i) eqn:Hl; cbn; intros H; [congruence|discriminate]. Qed.

Lemma replace_table h xs (ts : list table) i x tmp h1 t' : Inv h xs ts -> Forall good ts -> xs !! i = Some x ->
  step h empty_obj h1 tmp -> owns h1 tmp t' ->
  exists h2 x2, destroy_slots_h E h1 x = Ok (h2, x2) /\ Inv h2 (<[i := tmp]> xs) (<[i := t']> ts).
Proof.
  intros HI HG Hx Hs Ho. assert (Hl : length xs = length ts) by (destruct HI as (HF & _); eapply Forall2_length, HF).
  assert (Li : i < length xs) by (apply lookup_lt_is_Some; eauto).
  pose proof (Inv_app_empty _ _ _ HI) as HA.
  assert (H1 : Inv h1 (xs ++ [tmp]) (ts ++ [t'])).
  { assert (H : Inv h1 (<[length xs := tmp]> (xs ++ [empty_obj])) (<[length xs := t']> (ts ++ [empty_table]))).
    { eapply Inv_step; [exact HA| |exact Hs|exact Ho]. rewrite lookup_app_r, Nat.sub_diag by lia. reflexivity. }
    rewrite !insert_app_r_alt in H by lia. rewrite <- Hl, !Nat.sub_diag in H. exact H. }
  assert (Hx1 : (xs ++ [tmp]) !! i = Some x) by (apply lookup_app_l_Some; assumption).
  destruct (Inv_look _ _ _ _ _ H1 Hx1) as (t & Ht & Hox). rewrite lookup_app_l in Ht by lia.
  assert (Hc : clean t) by (apply good_clean; eapply Forall_lookup_1; eassumption).
  destruct (destroy_slots_ok h1 x t Hox Hc) as (h2 & x2 & G1 & G2 & _). exists h2, x2. split; [assumption|].
  assert (H2' : Inv h2 (<[i := empty_obj]> (xs ++ [tmp])) (<[i := empty_table]> (ts ++ [t']))).
  { eapply Inv_step; [exact H1|exact Hx1|exact G2|apply owns_empty]. }
  rewrite !insert_app_l in H2' by lia.
  assert (H3 : Inv h2 (<[i := tmp]> (<[length xs := empty_obj]> (<[i := empty_obj]> xs ++ [tmp])))
                      (<[i := t']> (<[length xs := empty_table]> (<[i := empty_table]> ts ++ [t'])))).
  { eapply Inv_swap; [exact H2'| | | |].
    - rewrite lookup_app_l by (rewrite insert_length; lia). apply list_lookup_insert. lia.
    - rewrite lookup_app_r by (rewrite insert_length; lia). rewrite insert_length, Nat.sub_diag. reflexivity.
    - rewrite lookup_app_l by (rewrite insert_length; lia). apply list_lookup_insert. lia.
    - rewrite lookup_app_r by (rewrite insert_length; lia). rewrite insert_length, Hl, Nat.sub_diag. reflexivity. }
  rewrite (insert_app_r_alt (<[i := empty_obj]> xs)), (insert_app_r_alt (<[i := empty_table]> ts)) in H3 by (rewrite insert_length; lia).
  rewrite !insert_length in H3.
  rewrite <- Hl, !Nat.sub_diag in H3. cbn [insert list_insert] in H3.
  rewrite !insert_app_l in H3 by (rewrite insert_length; lia). rewrite !list_insert_insert in H3.
  eapply Inv_drop_last; [exact H3|apply not_mine_empty|rewrite !insert_length; assumption].
Qed.

Lemma mexec_sim h xs (ts : list table) ns o : Inv h xs ts -> Forall good ts ->
  match mexec hash eqb eeq E ts ns o with
  | Ok (ts', ns', r) => exists h' xs', mexec_h hash eqb eeq E h xs ns o = Ok (h', xs', ns', r) /\ Inv h' xs' ts'
  | _ => True
  end.
Proof.
  intros HI HG. assert (Hl : length xs = length ts) by (destruct HI as (HF & _); eapply Forall2_length, HF).
  assert (HL : forall i t, load ts i = Ok t -> exists x, load xs i = Ok x /\ xs !! i = Some x /\ ts !! i = Some t /\ owns h x t /\ good t).
  { intros i t Ht. apply load_look in Ht. destruct (Inv_look_r _ _ _ _ _ HI Ht) as (x & Hx & Ho).
    exists x. split; [apply load_some; assumption|]. repeat (split; [assumption|]). eapply Forall_lookup_1; eassumption. }
  destruct o as [i o1|i j|i j|i j|i j|i k n|i n|i j|i p]; cbn [mexec mexec_h].
  - destruct (load ts i) as [t| | | |] eqn:Ht; cbn [rbind]; auto. destruct (HL i t Ht) as (x & -> & Hx & Ht' & Ho & Hg). cbn [rbind].
    pose proof (exec_sim h x t o1 Ho (good_clean _ Hg)) as He.
    destruct (exec hash eqb E t o1) as [[t' r]| | | |]; cbn [rbind]; auto.
    destruct He as (h' & x' & -> & Ho' & Hs). cbn [rbind]. eexists _, _. split; [reflexivity|]. eapply Inv_step; eassumption.
  - destruct (load ts i) as [t| | | |] eqn:Ht; cbn [rbind]; auto. destruct (HL i t Ht) as (x & -> & Hx & Ht' & Ho & Hg). cbn [rbind].
    destruct (load ts j) as [u| | | |] eqn:Hu; cbn [rbind]; auto. destruct (HL j u Hu) as (y & -> & Hy & Hu' & Hoy & Hgy). cbn [rbind].
    pose proof (copy_sim h y u Hoy) as Hc. unfold sim0 in Hc. destruct (copy hash E u) as [t'| | | |]; cbn [rbind]; auto.
    + destruct Hc as (h1 & tmp & -> & Ho1 & Hs1). cbn [rbind].
      destruct (replace_table h xs ts i x tmp h1 t' HI HG Hx Hs1 Ho1) as (h2 & x2 & G1 & G2). rewrite G1. cbn [rbind]. eauto.
    + rewrite Hc. eauto.
  - destruct (load ts i) as [t| | | |] eqn:Ht; cbn [rbind]; auto. destruct (HL i t Ht) as (x & -> & Hx & Ht' & Ho & Hg). cbn [rbind].
    destruct (load ts j) as [u| | | |] eqn:Hu; cbn [rbind]; auto. destruct (HL j u Hu) as (y & -> & Hy & Hu' & Hoy & Hgy). cbn [rbind].
    unfold move_out. assert (Li : i < length xs) by (apply lookup_lt_is_Some; eauto). assert (Lj : j < length xs) by (apply lookup_lt_is_Some; eauto).
    destruct (Nat.eq_dec i j) as [<-|Hij].
    + assert (Hx1 : (<[i := empty_obj]> xs) !! i = Some empty_obj) by (apply list_lookup_insert; assumption).
      rewrite (load_some _ _ _ Hx1). cbn [rbind destroy_slots_h o_cap empty_obj Nat.eqb].
      eexists _, _. split; [reflexivity|]. rewrite !list_insert_insert, !list_insert_id; assumption.
    + assert (Hx1 : (<[j := empty_obj]> xs) !! i = Some x) by (rewrite list_lookup_insert_ne by auto; assumption).
      rewrite (load_some _ _ _ Hx1). cbn [rbind].
      destruct (destroy_slots_ok h x t Ho (good_clean _ Hg)) as (h2 & x2 & G1 & G2 & _). rewrite G1. cbn [rbind].
      eexists _, _. split; [reflexivity|].
      assert (H1 : Inv h2 (<[i := empty_obj]> xs) (<[i := empty_table]> ts)).
      { eapply Inv_step; [exact HI|exact Hx|exact G2|apply owns_empty]. }
      assert (H2' : Inv h2 (<[i := y]> (<[j := empty_obj]> (<[i := empty_obj]> xs))) (<[i := u]> (<[j := empty_table]> (<[i := empty_table]> ts)))).
      { eapply Inv_swap; [exact H1| | | |].
        - apply list_lookup_insert. assumption.
        - rewrite list_lookup_insert_ne by auto. assumption.
        - apply list_lookup_insert. lia.
        - rewrite list_lookup_insert_ne by auto. assumption. }
      rewrite (list_insert_commute xs j i), (list_insert_commute ts j i), !list_insert_insert in H2' by auto. exact H2'.
  - destruct (load ts i) as [t| | | |] eqn:Ht; cbn [rbind]; auto. destruct (HL i t Ht) as (x & -> & Hx & Ht' & Ho & Hg). cbn [rbind].
    destruct (load ts j) as [u| | | |] eqn:Hu; cbn [rbind]; auto. destruct (HL j u Hu) as (y & -> & Hy & Hu' & Hoy & Hgy). cbn [rbind].
    eexists _, _. split; [reflexivity|]. eapply Inv_swap; eassumption.
  - destruct (Nat.eqb_spec i j) as [|Hij]; [exact I|].
    destruct (load ts i) as [t| | | |] eqn:Ht; cbn [rbind]; auto. destruct (HL i t Ht) as (x & -> & Hx & Ht' & Ho & Hg). cbn [rbind].
    destruct (load ts j) as [u| | | |] eqn:Hu; cbn [rbind]; auto. destruct (HL j u Hu) as (y & -> & Hy & Hu' & Hoy & Hgy). cbn [rbind].
    pose proof (merge_sim i j h xs ts x y t u Hij HI Hx Hy Ht' Hu' Hg) as Hm.
    destruct (merge hash eqb E t u) as [[[t' u'] b]| | | |]; cbn [rbind]; auto.
    destruct Hm as (h' & x' & y' & -> & HI'). cbn [rbind]. eauto.
  - destruct (load ts i) as [t| | | |] eqn:Ht; cbn [rbind]; auto. destruct (HL i t Ht) as (x & -> & Hx & Ht' & Ho & Hg). cbn [rbind].
    destruct (load ns n) as [nd| | | |]; cbn [rbind]; auto.
    pose proof (erase_key_sim h x t k Ho) as He. destruct (erase_key hash eqb E t k) as [[e t']| | | |]; cbn [rbind]; auto.
    destruct He as (h' & x' & -> & Ho' & Hs). cbn [rbind]. eexists _, _. split; [reflexivity|]. eapply Inv_step; eassumption.
  - destruct (load ts i) as [t| | | |] eqn:Ht; cbn [rbind]; auto. destruct (HL i t Ht) as (x & -> & Hx & Ht' & Ho & Hg). cbn [rbind].
    destruct (load ns n) as [[e|]| | | |]; cbn [rbind]; auto; cbn [insert_node insert_node_h].
    + pose proof (emplace_sim h x t (fst e) (snd e) Ho (good_clean _ Hg)) as He. unfold sim2 in He.
      destruct (emplace hash eqb E t (fst e) (snd e)) as [[[t' p] b]| | | |]; cbn [rbind]; auto.
      * destruct He as (h' & x' & -> & Ho' & Hs). cbn [rbind]. eexists _, _. split; [reflexivity|]. eapply Inv_step; eassumption.
      * rewrite He. cbn [rbind]. eauto.
    + cbn [rbind]. eexists _, _. split; [reflexivity|]. rewrite (list_insert_id xs), (list_insert_id ts) by assumption. assumption.
  - destruct (load ts i) as [t| | | |] eqn:Ht; cbn [rbind]; auto. destruct (HL i t Ht) as (x & -> & Hx & Ht' & Ho & Hg). cbn [rbind].
    destruct (load ts j) as [u| | | |] eqn:Hu; cbn [rbind]; auto. destruct (HL j u Hu) as (y & -> & Hy & Hu' & Hoy & Hgy). cbn [rbind].
    rewrite (view_ok _ _ _ Ho), (view_ok _ _ _ Hoy). cbn [rbind].
    destruct (table_eq hash E eeq t u); cbn [rbind]; auto. eauto.
  - destruct (load ts i) as [t| | | |] eqn:Ht; cbn [rbind]; auto. destruct (HL i t Ht) as (x & -> & Hx & Ht' & Ho & Hg). cbn [rbind].
    pose proof (erase_if_sim p h x t Ho) as He. destruct (erase_if E p t) as [[[t' c] seen]| | | |]; cbn [rbind]; auto.
    destruct He as (h' & x' & -> & Ho' & Hs). cbn [rbind]. eexists _, _. split; [reflexivity|]. eapply Inv_step; eassumption.
Qed.

Context (HQ : EltOK eqb eeq).
Notation R := (@History.R K V hash eqb E).
Lemma R_good (ts : list table) ms : Forall2 R ts ms -> Forall good ts.
Proof. induction 1 as [|t m ts ms [Hg _] _ IH]; constructor; assumption. Qed.
Lemma mrun_sim os : forall h xs (ts : list table) ns ms, Inv h xs ts -> Forall2 R ts ms -> Forall (mop_ok E (length ts) (length ns)) os ->
  exists h' xs' ts' ns' rs ms', mrun hash eqb eeq E ts ns os = Ok (ts', ns', rs) /\
    mrun_h hash eqb eeq E h xs ns os = Ok (h', xs', ns', rs) /\ Inv h' xs' ts' /\ Forall2 R ts' ms' /\
    s_mrun eqb eeq (ms, ns) os rs (ms', ns').
Proof.
  induction os as [|o os IH]; intros h xs ts ns ms HI HF Ho.
  - exists h, xs, ts, ns, [], ms. repeat (split; [reflexivity||assumption|]). constructor.
  - inversion Ho as [|? ? Ho1 Ho2]; subst.
    destruct (mexec_ok hash eqb eeq E HE HK HQ ts ns ms o HF Ho1) as (ts1 & ns1 & r & ms1 & He & Hst & HF1 & Hl1 & Hl2).
    pose proof (mexec_sim h xs ts ns o HI (R_good _ _ HF)) as Hx. rewrite He in Hx. destruct Hx as (h1 & xs1 & Hx & HI1).
    destruct (IH h1 xs1 ts1 ns1 ms1 HI1 HF1) as (h2 & xs2 & ts2 & ns2 & rs & ms2 & G1 & G2 & G3 & G4 & G5); [rewrite Hl1, Hl2; assumption|].
    exists h2, xs2, ts2, ns2, (r :: rs), ms2. cbn [mrun mrun_h]. rewrite He, Hx. cbn [rbind]. rewrite G1, G2. cbn [rbind].
    repeat (split; [reflexivity||assumption|]). econstructor; eassumption.
Qed.
Lemma Inv_start a : Inv [] (replicate a empty_obj) (replicate a empty_table).
Proof.
  split; [|split].
  - induction a; cbn; constructor; auto using owns_empty.
  - intros i j x y b Hx _ M _. apply lookup_replicate in Hx as [-> _]. exfalso. eapply not_mine_empty, M.
  - intros b Hb. cbn in Hb. lia.
Qed.
End Several.
End LifeProof.
