(** Every allowed call keeps every vector in order, and does to the sequences what it should. *)
From stdpp Require Import gmap list infinite fin_map_dom.
From Coq Require Import NArith Lia ZifyBool ZifyNat ZifyN.
From Verif.Common Require Import Word.
From Verif.Vec Require Import Model Wp Ranges Segs Ops1 Ops2 Ops3 Ops4 Ops5 Machine.
Local Open Scope nat_scope.
Set Default Proof Using "Type".

Section Inv.
Context {V : Type} (tr : traits).
Notation heap := (gmap nat (list (@cell V))).
Notation avail := (avail (V := V) tr).
Notation St := (St (V := V) tr).
Notation LV xs := (Live <$> xs).
Implicit Types (xs ys zs : list V) (hf h : heap) (rg : list vec) (v : vec) (L : list (list V)).

Definition vok h v xs : Prop :=
  length xs = v_sz v /\ (N.of_nat (v_cap v) * t_size tr <= t_max tr)%N /\
  match v_blk v with
  | None => v_sz v = 0 /\ v_cap v = 0
  | Some b => exists R, h !! b = Some (LV xs ++ R) /\ Forall avail R /\ length xs + length R = v_cap v
  end.
Definition Inv h rg L : Prop :=
  length rg = length L /\ (forall r v xs, rg !! r = Some v -> L !! r = Some xs -> vok h v xs) /\
  (forall r q v o b, rg !! r = Some v -> rg !! q = Some o -> v_blk v = Some b -> v_blk o = Some b -> r = q) /\
  (forall b, is_Some (h !! b) -> exists r v, rg !! r = Some v /\ v_blk v = Some b).
Definition own h v : heap := match v_blk v with None => h | Some b => delete b h end.
Lemma Inv_St h rg L r v xs : Inv h rg L -> rg !! r = Some v -> L !! r = Some xs -> St v xs (own h v) h.
Proof.
  intros (_ & Hv & _) Hr Hx. destruct (Hv _ _ _ Hr Hx) as (Hl & Hm & HS). split; [assumption|]. split; [assumption|]. unfold own. destruct (v_blk v) as [b|]; [|destruct HS; auto].
  destruct HS as (R & Hb & HR & Hc). split; [apply lookup_delete|]. exists R. split; [symmetry; apply insert_delete; assumption|]. auto.
Qed.
Lemma St_vok v xs hf h : St v xs hf h -> vok h v xs.
Proof.
  intros (Hl & Hm & HS). split; [assumption|]. split; [assumption|]. destruct (v_blk v) as [b|]; [|destruct HS as (_ & ? & ?); auto]. destruct HS as (_ & R & -> & HR & Hc). exists R. rewrite lookup_insert. auto.
Qed.
Lemma own_other h rg L r q v o b : Inv h rg L -> rg !! r = Some v -> rg !! q = Some o -> q <> r -> v_blk o = Some b -> own h v !! b = h !! b.
Proof.
  intros (_ & _ & Hd & _) Hr Hq Hn Hb. unfold own. destruct (v_blk v) as [b'|] eqn:Ev; [|reflexivity]. rewrite lookup_delete_ne; [reflexivity|]. intros ->. apply Hn. eapply Hd; eassumption.
Qed.
Lemma Inv_back h rg L r v v' xs' h' : Inv h rg L -> rg !! r = Some v -> St v' xs' (own h v) h' -> Inv h' (<[r := v']> rg) (<[r := xs']> L).
Proof.
  intros HI Hr HS. pose proof HI as (Hlen & Hv & Hd & Ho). assert (Hrl : r < length rg) by (apply lookup_lt_Some in Hr; assumption).
  assert (HB : forall b, v_blk v' = Some b -> own h v !! b = None) by (intros b Hb; destruct HS as (_ & _ & HS); rewrite Hb in HS; apply HS).
  assert (HO : forall q o b, q <> r -> rg !! q = Some o -> v_blk o = Some b -> h !! b <> None).
  { intros q o b Hq Hqo Hb. assert (q < length L) by (rewrite <- Hlen; apply lookup_lt_Some in Hqo; assumption). destruct (lookup_lt_is_Some_2 L q) as [zs Hz]; [assumption|]. destruct (Hv _ _ _ Hqo Hz) as (_ & _ & H1). rewrite Hb in H1. destruct H1 as (R & H1 & _). rewrite H1. discriminate. }
  assert (HN : forall q o b, q <> r -> rg !! q = Some o -> v_blk o = Some b -> v_blk v' <> Some b).
  { intros q o b Hq Hqo Hb Hb'. apply (HO _ _ _ Hq Hqo Hb). rewrite <- (own_other h rg L r q v o b) by assumption. auto. }
  assert (HH : forall q o b, q <> r -> rg !! q = Some o -> v_blk o = Some b -> h' !! b = h !! b).
  { intros q o b Hq Hqo Hb. rewrite <- (own_other h rg L r q v o b) by assumption. pose proof (HN _ _ _ Hq Hqo Hb) as Hne. destruct HS as (_ & _ & HS). destruct (v_blk v') as [b'|]; [|destruct HS as (-> & _); reflexivity]. destruct HS as (_ & R & -> & _). rewrite lookup_insert_ne by congruence. reflexivity. }
  split; [rewrite !insert_length; assumption|]. split; [|split].
  - intros q o zs Hq Hz. destruct (decide (q = r)) as [->|Hn].
    + rewrite list_lookup_insert in Hq by assumption. rewrite list_lookup_insert in Hz by lia. injection Hq as <-. injection Hz as <-. eapply St_vok. eassumption.
    + rewrite list_lookup_insert_ne in Hq by congruence. rewrite list_lookup_insert_ne in Hz by congruence. destruct (Hv _ _ _ Hq Hz) as (H1 & H2 & H3). split; [assumption|]. split; [assumption|]. destruct (v_blk o) as [b|] eqn:Eb; [|assumption]. rewrite (HH _ _ _ Hn Hq Eb). assumption.
  - intros q p vq vp b Hq Hp Bq Bp. destruct (decide (q = r)) as [->|Hnq]; destruct (decide (p = r)) as [->|Hnp]; [reflexivity| | |].
    + rewrite list_lookup_insert in Hq by assumption. rewrite list_lookup_insert_ne in Hp by congruence. injection Hq as <-. destruct (HN _ _ _ Hnp Hp Bp). assumption.
    + rewrite list_lookup_insert in Hp by assumption. rewrite list_lookup_insert_ne in Hq by congruence. injection Hp as <-. destruct (HN _ _ _ Hnq Hq Bq). assumption.
    + rewrite list_lookup_insert_ne in Hq by congruence. rewrite list_lookup_insert_ne in Hp by congruence. eapply Hd; eassumption.
  - intros b Hb. destruct (decide (v_blk v' = Some b)) as [E|E]; [exists r, v'; split; [apply list_lookup_insert; assumption|assumption]|].
    assert (Hb' : is_Some (own h v !! b)). { destruct HS as (_ & _ & HS). destruct (v_blk v') as [b'|]; [|destruct HS as (<- & _); assumption]. destruct HS as (_ & R & -> & _). rewrite lookup_insert_ne in Hb by congruence. assumption. }
    assert (Hb2 : is_Some (h !! b) /\ v_blk v <> Some b). { unfold own in Hb'. destruct (v_blk v) as [b'|]; [|split; [assumption|discriminate]]. destruct (decide (b' = b)) as [->|Hne]; [rewrite lookup_delete in Hb'; destruct Hb'; discriminate|]. rewrite lookup_delete_ne in Hb' by assumption. split; [assumption|congruence]. }
    destruct Hb2 as [Hb2 Hvb]. destruct (Ho b Hb2) as (q & o & Hq & Hbo). exists q, o. split; [|assumption]. rewrite list_lookup_insert_ne; [assumption|]. intros ->. congruence.
Qed.
Lemma Inv_same h rg L r v xs' h' : Inv h rg L -> rg !! r = Some v -> St v xs' (own h v) h' -> Inv h' rg (<[r := xs']> L).
Proof. intros HI Hr HS. rewrite <- (list_insert_id rg r v Hr). eapply Inv_back; eassumption. Qed.
Lemma Inv_regs h rg L r q v o xs zs : Inv h rg L -> rg !! r = Some v -> rg !! q = Some o -> L !! r = Some xs -> L !! q = Some zs -> Inv h (<[q := v]> (<[r := o]> rg)) (<[q := xs]> (<[r := zs]> L)).
Proof.
  intros (Hlen & Hv & Hd & Ho) Hr Hq Hx Hz. assert (Hrl : r < length rg) by (apply lookup_lt_Some in Hr; assumption). assert (Hql : q < length rg) by (apply lookup_lt_Some in Hq; assumption).
  set (f := fun k => if decide (k = q) then r else if decide (k = r) then q else k).
  assert (F1 : forall k v', <[q := v]> (<[r := o]> rg) !! k = Some v' -> rg !! f k = Some v').
  { intros k v' Hk. unfold f. destruct (decide (k = q)) as [->|N1]; [rewrite list_lookup_insert in Hk by (rewrite insert_length; assumption); congruence|]. rewrite list_lookup_insert_ne in Hk by congruence. destruct (decide (k = r)) as [->|N2]; [rewrite list_lookup_insert in Hk by assumption; congruence|]. rewrite list_lookup_insert_ne in Hk by congruence. assumption. }
  assert (F2 : forall k x', <[q := xs]> (<[r := zs]> L) !! k = Some x' -> L !! f k = Some x').
  { intros k v' Hk. unfold f. destruct (decide (k = q)) as [->|N1]; [rewrite list_lookup_insert in Hk by (rewrite insert_length; lia); congruence|]. rewrite list_lookup_insert_ne in Hk by congruence. destruct (decide (k = r)) as [->|N2]; [rewrite list_lookup_insert in Hk by lia; congruence|]. rewrite list_lookup_insert_ne in Hk by congruence. assumption. }
  assert (F3 : forall k, f (f k) = k). { intros k. unfold f. repeat destruct (decide _); congruence. }
  split; [rewrite !insert_length; assumption|]. split; [|split].
  - intros k v' x' H1 H2. eapply Hv; eauto.
  - intros k1 k2 v1 v2 b H1 H2 B1 B2. rewrite <- (F3 k1), <- (F3 k2). f_equal. eapply Hd; eauto.
  - intros b Hb. destruct (Ho b Hb) as (k & v' & Hk & Bk). exists (f k), v'. split; [|assumption].
    assert (Hfl : f k < length (<[q := v]> (<[r := o]> rg))). { rewrite !insert_length. unfold f. repeat destruct (decide _); try assumption. apply lookup_lt_Some in Hk. assumption. }
    destruct (lookup_lt_is_Some_2 _ _ Hfl) as [v2 Hv2]. rewrite Hv2. apply F1 in Hv2. rewrite F3 in Hv2. congruence.
Qed.
Lemma Inv_init k : Inv ∅ (replicate k (mkV None 0 0)) (replicate k []).
Proof.
  split; [rewrite !replicate_length; reflexivity|]. split; [|split].
  - intros r v xs Hr Hx. apply lookup_replicate in Hr as [-> _]. apply lookup_replicate in Hx as [-> _]. split; [reflexivity|]. cbn [v_cap v_blk v_sz]. split; [lia|]. auto.
  - intros r q v o b Hr _ Hb. apply lookup_replicate in Hr as [-> _]. discriminate.
  - intros b [c Hb]. rewrite lookup_empty in Hb. discriminate.
Qed.
Lemma cell_vals_app (A B : list (@cell V)) : cell_vals (A ++ B) = cell_vals A ++ cell_vals B.
Proof. apply flat_map_app. Qed.
Lemma cell_vals_LV xs : cell_vals (LV xs) = xs.
Proof. induction xs as [|x xs IH]; [reflexivity|]. cbn. f_equal. exact IH. Qed.
Lemma Inv_view h rg L o : Inv h rg L -> view (mkW h rg o) = L.
Proof.
  intros (Hlen & Hv & _). apply list_eq. intros r. unfold view. cbn [w_heap w_regs]. rewrite list_lookup_fmap. destruct (rg !! r) as [v|] eqn:Er.
  - assert (r < length L) by (rewrite <- Hlen; apply lookup_lt_Some in Er; assumption). destruct (lookup_lt_is_Some_2 L r) as [xs Hx]; [assumption|]. rewrite Hx. cbn [fmap option_fmap option_map]. f_equal. destruct (Hv _ _ _ Er Hx) as (Hl & _ & HS). unfold elems.
    destruct (v_blk v) as [b|]; [|destruct HS; destruct xs; [reflexivity|cbn [length] in *; lia]]. destruct HS as (R & -> & _). rewrite <- Hl. replace (length xs) with (length (LV xs)) by apply fmap_length. rewrite take_app. apply cell_vals_LV.
  - apply lookup_ge_None in Er. symmetry. cbn. apply lookup_ge_None. lia.
Qed.
Lemma Inv_arg h rg L r v xs q o zs i x b : Inv h rg L -> rg !! r = Some v -> L !! r = Some xs -> rg !! q = Some o -> L !! q = Some zs -> zs !! i = Some x -> v_blk o = Some b -> argok (own h v) v xs (Ref (b, i)) x.
Proof.
  intros HI Hr Hx Hq Hz Hi Hb. cbn [argok fst snd]. destruct (decide (q = r)) as [->|Hn].
  - right. split; congruence.
  - left. unfold cellat. cbn [fst snd]. rewrite (own_other h rg L r q v o b) by assumption. destruct HI as (_ & Hv & _). destruct (Hv _ _ _ Hq Hz) as (_ & _ & H1). rewrite Hb in H1. destruct H1 as (R & -> & _). rewrite lookup_app_l by (rewrite fmap_length; apply lookup_lt_Some in Hi; assumption). rewrite list_lookup_fmap, Hi. reflexivity.
Qed.
Lemma Inv_blk h rg L q o zs i x : Inv h rg L -> rg !! q = Some o -> L !! q = Some zs -> zs !! i = Some x -> exists b, v_blk o = Some b.
Proof.
  intros (_ & Hv & _) Hq Hz Hi. destruct (Hv _ _ _ Hq Hz) as (Hl & _ & H1). destruct (v_blk o) as [b|]; [eauto|]. destruct H1 as [H1 _]. apply lookup_lt_Some in Hi. lia.
Qed.
Lemma Inv_src h rg L r v q o zs : Inv h rg L -> rg !! r = Some v -> rg !! q = Some o -> q <> r -> L !! q = Some zs -> src_ok tr (own h v) o zs.
Proof.
  intros HI Hr Hq Hn Hz. pose proof HI as (_ & Hv & _). destruct (Hv _ _ _ Hq Hz) as (Hl & Hm & H1). unfold src_ok. split; [congruence|].
  assert (Hle : v_sz o <= v_cap o). { destruct (v_blk o); [destruct H1 as (R & _ & _ & H1); lia|lia]. }
  split; [nia|]. intros Hp. destruct (v_blk o) as [b|] eqn:Eb; [|lia]. destruct H1 as (R & H1 & _). exists b, R. split; [reflexivity|]. rewrite (own_other h rg L r q v o b) by assumption. assumption.
Qed.
End Inv.

Set Default Proof Using "All".
Section Step.
Context {V : Type} (tr : traits) (moved : V -> V) (dflt : V).
Notation heap := (gmap nat (list (@cell V))).
Notation M := (@M V).
Notation Inv := (Inv (V := V) tr).
Notation post A := (A -> heap -> list vec -> Prop).
Implicit Types (xs ys zs : list V) (hf h : heap) (rg : list vec) (v : vec) (L : list (list V)) (E : heap -> list vec -> Prop).
Notation exec := (exec tr moved dflt).
Notation spec := (spec dflt).

Lemma wp_resolve a L h rg r v xs x (Q : post (@arg V)) E : Inv h rg L -> rg !! r = Some v -> L !! r = Some xs -> sval L a = Some x ->
  (forall a', argok (own h v) v xs a' x -> (forall mv : bool, movable a mv -> mv = true -> exists y, a' = Val y) -> (outside r a -> forall l, a' = Ref l -> v_blk v <> Some l.1) -> Q a' h rg) -> wp (resolve a) Q E h rg.
Proof.
  intros HI Hr Hx Ha HQ. destruct a as [y|q i]; cbn [resolve sval] in *.
  - injection Ha as ->. apply wp_ret, HQ; [reflexivity|eauto|discriminate].
  - destruct (L !! q) as [zs|] eqn:Hz; [|discriminate]. cbn [mbind option_bind] in Ha. destruct (rg !! q) as [o|] eqn:Hq; [|apply lookup_ge_None in Hq; apply lookup_lt_Some in Hz; destruct HI as [Hlen _]; lia].
    destruct (Inv_blk _ _ _ _ _ _ _ _ _ HI Hq Hz Ha) as [b Hb]. apply wp_bind. eapply wp_get; [eassumption|]. apply wp_bind. unfold blk. rewrite Hb. apply wp_ret, wp_ret, HQ.
    + eapply Inv_arg; eassumption.
    + intros mv Hm Hmv. destruct (Hm Hmv).
    + intros Hout l [= <-] Hv. cbn [fst] in Hv. cbn [outside] in Hout. apply Hout. destruct HI as (_ & _ & Hd & _). symmetry. eapply Hd; eassumption.
Qed.
Lemma at_upd o L r xs ys : ~ never_throws o -> dst o = r -> L !! r = Some xs -> (all_or_nothing tr o -> ys = xs) -> (is_ctor o -> ys = []) -> after_throw tr o L (<[r := ys]> L).
Proof.
  intros Hn <- Hx Ha Hc. split; [assumption|]. split; [apply insert_length|]. split; [intros q Hq; apply list_lookup_insert_ne; congruence|]. split; [intros Hal; rewrite (Ha Hal); apply list_insert_id; assumption|intros Hcc; rewrite (Hc Hcc); reflexivity].
Qed.
Lemma wp_none (m : M unit) (Q : post obs) E h rg : wp m (fun _ h' rg' => Q ONone h' rg') E h rg -> wp (none m) Q E h rg.
Proof. intros H. apply wp_bind. eapply wp_mono; [exact H| |auto]. intros [] h' rg' HQ. apply wp_ret. assumption. Qed.
Lemma wp_pos (m : M nat) (Q : post obs) E h rg : wp m (fun n h' rg' => Q (OPos n) h' rg') E h rg -> wp (pos_of m) Q E h rg.
Proof. intros H. apply wp_bind. eapply wp_mono; [exact H| |auto]. intros n h' rg' HQ. apply wp_ret. assumption. Qed.

Theorem step_ok o h rg L : wft tr -> Inv h rg L -> pre tr dflt o L ->
  wp (exec o) (fun x h' rg' => exists L', spec o L = Some (x, L') /\ Inv h' rg' L') (fun h' rg' => exists L', after_throw tr o L L' /\ Inv h' rg' L') h rg.
Proof.
  intros Hw HI (Hs & Hd & Hc). set (r := dst o) in *. assert (exists v, rg !! r = Some v) as [v Hr] by (apply lookup_lt_is_Some_2; destruct HI as [-> _]; assumption).
  assert (exists xs, L !! r = Some xs) as [xs Hx] by (apply lookup_lt_is_Some_2; assumption). pose proof (Inv_St _ _ _ _ _ _ _ HI Hr Hx) as HS.
  pose proof (fun v' xs' h' => Inv_back tr h rg L r v v' xs' h' HI Hr) as BACK. pose proof (fun xs' h' => Inv_same tr h rg L r v xs' h' HI Hr) as SAME.
  assert (SAMEL : L = <[r := xs]> L) by (symmetry; apply list_insert_id; assumption).
  (* after the destructor *)
  assert (CT : forall (m : M unit) (Q : post obs) E,
    (forall hf rg', rg' = <[r := mkV None 0 0]> rg -> rg' !! r = Some (mkV None 0 0) -> Inv hf rg' (<[r := []]> L) -> hf = own h v ->
       (forall v' xs' h', St tr v' xs' hf h' -> Inv h' (<[r := v']> rg') (<[r := xs']> L)) -> wp m (fun _ h' rg'' => Q ONone h' rg'') E hf rg') -> wp (none (bind (dtor tr r) (fun _ => m))) Q E h rg).
  { intros m Q E H. apply wp_none, wp_bind. eapply wp_dtor; [eassumption|exact HS|]. assert (Hnull : <[r := mkV None 0 0]> rg !! r = Some (mkV None 0 0)) by (apply list_lookup_insert; apply lookup_lt_Some in Hr; assumption).
    assert (HI1 : Inv (own h v) (<[r := mkV None 0 0]> rg) (<[r := []]> L)) by (apply BACK, St_null).
    apply H; [reflexivity|assumption|assumption|reflexivity|]. intros v' xs' h' HS'. pose proof (Inv_back tr _ _ _ r _ v' xs' h' HI1 Hnull HS') as HB. rewrite (list_insert_insert L) in HB. exact HB. }
  assert (CE : forall hf rg', Inv hf rg' (<[r := []]> L) -> is_ctor o -> ~ never_throws o -> ~ all_or_nothing tr o -> exists L', after_throw tr o L L' /\ Inv hf rg' L').
  { intros hf rg' HI' Hct Hn Ha. exists (<[r := []]> L). split; [|assumption]. eapply at_upd; [assumption|reflexivity|eassumption|tauto|auto]. }
  assert (ET : forall ys h' rg', Inv h' rg' (<[r := ys]> L) -> ~ never_throws o -> ~ all_or_nothing tr o -> ~ is_ctor o -> exists L', after_throw tr o L L' /\ Inv h' rg' L').
  { intros ys h' rg' HI' Hn Ha Hct. exists (<[r := ys]> L). split; [|assumption]. eapply at_upd; [assumption|reflexivity|eassumption|tauto|tauto]. }
  assert (ES : forall ys h' rg', Inv h' rg' (<[r := ys]> L) -> (strong tr = true -> ys = xs) -> ~ never_throws o -> (all_or_nothing tr o -> strong tr = true) -> ~ is_ctor o -> exists L', after_throw tr o L L' /\ Inv h' rg' L').
  { intros ys h' rg' HI' Hys Hn Ha Hct. exists (<[r := ys]> L). split; [|assumption]. eapply at_upd; [assumption|reflexivity|eassumption|auto|tauto]. }
  assert (DONE : forall x L' h' rg', spec o L = Some (x, L') -> Inv h' rg' L' -> exists L'', spec o L = Some (x, L'') /\ Inv h' rg' L'') by eauto.
  destruct o; cbn [Machine.exec Machine.spec call_ok all_or_nothing never_throws is_ctor] in *; cbn [dst] in r; subst r; rename r0 into r.
  - (* CtorEmpty *) apply wp_none. eapply wp_dtor; [eassumption|exact HS|]. eapply DONE; [reflexivity|]. apply BACK, St_null.
  - (* CtorN *) apply CT. intros hf rg' Hrg Hn HI1 _ B1. eapply (wp_ctor_default tr moved); [assumption|assumption|exact Hn| | |].
    + intros v' h' HS' _. eapply DONE; [reflexivity|]. apply B1. assumption.
    + apply CE; auto.
    + subst rg'. rewrite list_insert_insert. apply CE; auto.
  - (* CtorFill *) destruct Hc as [Hf Hout]. destruct (sval L a) as [x|] eqn:Ex; [|destruct Hs; discriminate]. cbn [mbind option_bind] in *. apply CT. intros hf rg' Hrg Hn HI1 _ B1. apply wp_bind.
    eapply (wp_resolve a (<[r := []]> L)); [exact HI1|exact Hn|apply list_lookup_insert; assumption| |].
    + destruct a as [y|q i]; cbn [sval outside] in *; [exact Ex|]. rewrite list_lookup_insert_ne by congruence. exact Ex.
    + intros a' Ha _ _. eapply wp_ctor_fill; [assumption|assumption|exact Hn| | | |].
      * eapply argok_aval; [|exact Ha]. cbn [own v_blk]. apply St_null.
      * intros v' h' HS' _. eapply DONE; [reflexivity|]. apply B1. assumption.
      * apply CE; auto.
      * subst rg'. rewrite list_insert_insert. apply CE; auto.
  - (* CtorList *) apply CT. intros hf rg' Hrg Hn HI1 _ B1. eapply wp_ctor_list; [assumption|assumption|exact Hn| | |].
    + intros v' h' HS' _. eapply DONE; [reflexivity|]. apply B1. assumption.
    + apply CE; auto.
    + subst rg'. rewrite list_insert_insert. apply CE; auto.
  - (* CtorInput *) apply CT. intros hf rg' Hrg Hn HI1 _ B1. eapply wp_ctor_input; [assumption|exact Hn| |].
    + intros v' h' HS'. eapply DONE; [reflexivity|]. apply B1. assumption.
    + subst rg'. rewrite list_insert_insert. apply CE; auto.
  - (* CtorCopy *) destruct (L !! q) as [zs|] eqn:Hz; [|destruct Hs; discriminate]. cbn [mbind option_bind] in *. apply CT. intros hf rg' Hrg Hn HI1 _ B1.
    assert (exists o, rg !! q = Some o) as [o Hq] by (apply lookup_lt_is_Some_2; destruct HI as [-> _]; apply lookup_lt_Some in Hz; assumption).
    eapply wp_ctor_copy; [assumption|exact Hn|subst rg'; rewrite list_lookup_insert_ne by congruence; exact Hq| | | |].
    + assert (Hz1 : (<[r := []]> L) !! q = Some zs) by (rewrite list_lookup_insert_ne by congruence; exact Hz). assert (Hq1 : rg' !! q = Some o) by (subst rg'; rewrite list_lookup_insert_ne by congruence; exact Hq). exact (Inv_src tr hf rg' _ r _ q o zs HI1 Hn Hq1 (not_eq_sym Hc) Hz1).
    + intros v' h' HS' _. eapply DONE; [reflexivity|]. apply B1. assumption.
    + apply CE; auto.
    + subst rg'. rewrite list_insert_insert. apply CE; auto.
  - (* CtorMove *) destruct (L !! q) as [zs|] eqn:Hz; [|destruct Hs; discriminate]. cbn [mbind option_bind] in *. apply CT. intros hf rg' Hrg Hn HI1 _ B1.
    assert (exists o, rg !! q = Some o) as [o Hq] by (apply lookup_lt_is_Some_2; destruct HI as [-> _]; apply lookup_lt_Some in Hz; assumption).
    assert (Hz1 : (<[r := []]> L) !! q = Some zs) by (rewrite list_lookup_insert_ne by congruence; exact Hz). assert (Hq1 : rg' !! q = Some o) by (subst rg'; rewrite list_lookup_insert_ne by congruence; exact Hq).
    unfold ctor_move. apply wp_bind. eapply wp_get; [exact Hq1|]. apply wp_bind. eapply wp_set; [exact Hn|]. eapply wp_set; [rewrite list_lookup_insert_ne by congruence; exact Hq1|].
    eapply DONE; [reflexivity|]. assert (Hx1 : <[r := []]> L !! r = Some []) by (apply list_lookup_insert; assumption). pose proof (Inv_regs tr _ _ _ r q _ _ _ _ HI1 Hn Hq1 Hx1 Hz1) as HR. rewrite (list_insert_insert L) in HR. exact HR.
  - (* AssignFill *) destruct (sval L a) as [x|] eqn:Ex; [|destruct Hs; discriminate]. cbn [mbind option_bind] in *. apply wp_none, wp_bind. eapply wp_resolve; [exact HI|exact Hr|exact Hx|exact Ex|]. intros a' Ha _ _.
    eapply wp_assign_fill; [assumption|assumption|exact Hr|exact HS|exact Ha| |].
    + intros v' h' HS' _. eapply DONE; [reflexivity|]. apply BACK. assumption.
    + intros v' ys h' HS'. eapply ET; [apply BACK; eassumption|auto|auto|auto].
  - (* AssignList *) apply wp_none. eapply wp_assign_list; [assumption|assumption|exact Hr|exact HS| |].
    + intros v' h' HS' _. eapply DONE; [reflexivity|]. apply BACK. assumption.
    + intros v' ys h' HS'. eapply ET; [apply BACK; eassumption|auto|auto|auto].
  - (* AssignInput *) apply wp_none. eapply wp_assign_input; [assumption|exact Hr|exact HS| |].
    + intros v' h' HS'. eapply DONE; [reflexivity|]. apply BACK. assumption.
    + intros v' ys h' HS'. eapply ET; [apply BACK; eassumption|auto|auto|auto].
  - (* CopyAssign *) destruct (L !! q) as [zs|] eqn:Hz; [|destruct Hs; discriminate]. cbn [mbind option_bind] in *. apply wp_none.
    assert (exists o, rg !! q = Some o) as [o Hq] by (apply lookup_lt_is_Some_2; destruct HI as [-> _]; apply lookup_lt_Some in Hz; assumption).
    destruct (decide (r = q)) as [->|Hrq].
    + unfold copy_assign. rewrite Nat.eqb_refl. apply wp_skip. eapply DONE; [reflexivity|]. replace zs with xs by congruence. rewrite <- SAMEL. assumption.
    + eapply wp_copy_assign; [assumption|exact Hrq|exact Hr|exact Hq|exact HS|eapply Inv_src; try eassumption; congruence| |].
      * intros v' h' HS' _. eapply DONE; [reflexivity|]. apply BACK. assumption.
      * intros v' ys h' HS'. eapply ET; [apply BACK; eassumption|auto|auto|auto].
  - (* MoveAssign *) rewrite Hx in *. cbn [mbind option_bind] in *. destruct (L !! q) as [zs|] eqn:Hz; [|destruct Hs; discriminate]. cbn [mbind option_bind] in *. apply wp_none.
    assert (exists o, rg !! q = Some o) as [o Hq] by (apply lookup_lt_is_Some_2; destruct HI as [-> _]; apply lookup_lt_Some in Hz; assumption).
    unfold move_assign. destruct (Nat.eqb_spec r q) as [->|Hrq].
    + apply wp_skip. eapply DONE; [reflexivity|]. rewrite list_insert_insert, <- SAMEL. assumption.
    + unfold swap. apply wp_bind. eapply wp_get; [exact Hr|]. apply wp_bind. eapply wp_get; [exact Hq|]. apply wp_bind. eapply wp_set; [exact Hr|]. eapply wp_set; [rewrite list_lookup_insert_ne by congruence; exact Hq|].
      eapply DONE; [reflexivity|]. eapply Inv_regs; eassumption.
  - (* Swap *) rewrite Hx in *. cbn [mbind option_bind] in *. destruct (L !! q) as [zs|] eqn:Hz; [|destruct Hs; discriminate]. cbn [mbind option_bind] in *. apply wp_none.
    assert (exists o, rg !! q = Some o) as [o Hq] by (apply lookup_lt_is_Some_2; destruct HI as [-> _]; apply lookup_lt_Some in Hz; assumption).
    unfold swap. apply wp_bind. eapply wp_get; [exact Hr|]. apply wp_bind. eapply wp_get; [exact Hq|]. apply wp_bind. eapply wp_set; [exact Hr|].
    assert (exists o2, <[r := o]> rg !! q = Some o2) as [o2 Ho2] by (apply lookup_lt_is_Some_2; rewrite insert_length; apply lookup_lt_Some in Hq; assumption). eapply wp_set; [exact Ho2|].
    eapply DONE; [reflexivity|]. eapply Inv_regs; eassumption.
  - (* Reserve *) apply wp_none. eapply wp_reserve; [assumption|assumption|exact Hr|exact HS| |].
    + intros v' h' HS' _ _. eapply DONE; [reflexivity|]. rewrite SAMEL. apply BACK. assumption.
    + intros h' _ (ys & _ & Hys & HS'). eapply ES; [apply SAME; eassumption|assumption|auto|auto|auto].
  - (* Shrink *) apply wp_none. eapply wp_shrink_to_fit; [assumption|exact Hr|exact HS|].
    intros v' ys h' _ Hys HS' _. eapply DONE; [reflexivity|]. rewrite SAMEL. rewrite (Hys Hc) in HS'. apply BACK. assumption.
  - (* Resize *) rewrite Hx in *. cbn [mbind option_bind] in *. apply wp_none. eapply wp_resize; [assumption|assumption|exact Hr|exact HS| |].
    + intros v' h' HS' _. eapply DONE; [reflexivity|]. apply BACK. exact HS'.
    + intros v' ys h' HS' _ Hys. eapply ES; [apply BACK; eassumption|assumption|auto|auto|auto].
  - (* ResizeWith *) rewrite Hx in *. cbn [mbind option_bind] in *. destruct (sval L a) as [x|] eqn:Ex; [|destruct Hs; discriminate]. cbn [mbind option_bind] in *. apply wp_none, wp_bind. eapply wp_resolve; [exact HI|exact Hr|exact Hx|exact Ex|]. intros a' Ha _ _.
    eapply wp_resize_with; [assumption|assumption|exact Hr|exact HS|exact Ha| |].
    + intros v' h' HS' _. eapply DONE; [reflexivity|]. apply BACK. exact HS'.
    + intros v' ys h' HS' _ Hys. eapply ES; [apply BACK; eassumption|assumption|auto|auto|auto].
  - (* PushBack *) rewrite Hx in *. cbn [mbind option_bind] in *. destruct (sval L a) as [x|] eqn:Ex; [|destruct Hs; discriminate]. cbn [mbind option_bind] in *. apply wp_none, wp_bind. eapply wp_resolve; [exact HI|exact Hr|exact Hx|exact Ex|]. intros a' Ha Hmv _.
    eapply wp_push_back; [assumption|exact Hr|exact HS|exact Ha|apply Hmv; assumption| |].
    + intros v' h' HS' _ _. eapply DONE; [reflexivity|]. apply BACK. exact HS'.
    + intros h' (ys & _ & Hys & HS'). eapply ES; [apply SAME; eassumption|assumption|auto|auto|auto].
  - (* PopBack *) rewrite Hx in *. cbn [mbind option_bind] in *. apply wp_none. destruct (exists_last (l := xs)) as (ys & x & ->); [destruct xs; [cbn [length] in Hc; lia|discriminate]|].
    eapply (wp_pop_back tr moved); [exact Hr|exact HS|]. intros h' HS'. eapply DONE; [|apply BACK; exact HS']. rewrite app_length. cbn [length]. replace (length ys + 1 - 1) with (length ys) by lia. rewrite take_app. reflexivity.
  - (* Clear *) apply wp_none. eapply (wp_clear tr); [exact Hr|exact HS|]. intros h' HS'. eapply DONE; [reflexivity|]. apply BACK. exact HS'.
  - (* Erase *) unfold within in Hc. rewrite Hx in *. cbn [mbind option_bind] in *. destruct Hc as [H1 H2]. apply wp_pos. eapply wp_erase; [exact Hr|exact HS|assumption|assumption| |].
    + cbv zeta. intros h' HS'. eapply DONE; [reflexivity|]. apply BACK. exact HS'.
    + intros ys h' _ HS'. eapply ET; [apply SAME; eassumption|auto|auto|auto].
  - (* EraseIf *) rewrite Hx in *. cbn [mbind option_bind] in *. apply wp_pos. eapply wp_erase_if; [exact Hr|exact HS| |].
    + cbv zeta. intros h' HS'. eapply DONE; [reflexivity|]. apply BACK. exact HS'.
    + intros ys h' _ HS'. eapply ET; [apply SAME; eassumption|auto|auto|auto].
  - (* Emplace *) unfold within, grows, at_end in Hc. rewrite Hx in *. cbn [mbind option_bind] in *. destruct Hc as (H1 & H2 & H3 & H4). destruct (sval L a) as [x|] eqn:Ex; [|destruct Hs; discriminate]. cbn [mbind option_bind] in *. apply wp_pos, wp_bind. eapply wp_resolve; [exact HI|exact Hr|exact Hx|exact Ex|]. intros a' Ha Hmv Hout.
    eapply wp_emplace; [assumption|exact Hr|exact HS|assumption|assumption|exact Ha|apply Hmv; assumption| | |].
    + intros _ Hp. destruct H4 as [H4|H4]; [apply Hout; assumption|lia].
    + intros v' h' HS' _ _. eapply DONE; [reflexivity|]. apply BACK. exact HS'.
    + intros v' ys h' HS'. eapply ET; [apply BACK; eassumption|auto|auto|auto].
  - (* InsertMove *) unfold within, grows in Hc. rewrite Hx in *. cbn [mbind option_bind] in *. destruct Hc as (H1 & H2). apply wp_pos. eapply wp_insert_move; [assumption|exact Hr|exact HS|assumption|assumption| |].
    + intros v' h' HS' _ _. eapply DONE; [reflexivity|]. apply BACK. exact HS'.
    + intros v' ys h' HS'. eapply ET; [apply BACK; eassumption|auto|auto|auto].
  - (* InsertCopy *) unfold within, grows in Hc. rewrite Hx in *. cbn [mbind option_bind] in *. destruct Hc as (H1 & H2). destruct (sval L a) as [x|] eqn:Ex; [|destruct Hs; discriminate]. cbn [mbind option_bind] in *. apply wp_pos, wp_bind. eapply wp_resolve; [exact HI|exact Hr|exact Hx|exact Ex|]. intros a' Ha _ _.
    eapply wp_insert_copy; [assumption|exact Hr|exact HS|assumption|assumption|exact Ha| |].
    + intros v' h' HS' _ _. eapply DONE; [reflexivity|]. apply BACK. exact HS'.
    + intros v' ys h' HS'. eapply ET; [apply BACK; eassumption|auto|auto|auto].
  - (* InsertFill *) unfold within, grows in Hc. rewrite Hx in *. cbn [mbind option_bind] in *. destruct Hc as (H1 & H2). destruct (sval L a) as [x|] eqn:Ex; [|destruct Hs; discriminate]. cbn [mbind option_bind] in *. apply wp_pos, wp_bind. eapply wp_resolve; [exact HI|exact Hr|exact Hx|exact Ex|]. intros a' Ha _ _.
    eapply wp_insert_fill; [assumption|exact Hr|exact HS|assumption|assumption|exact Ha| |].
    + intros v' h' HS' _ _. eapply DONE; [reflexivity|]. apply BACK. exact HS'.
    + intros v' ys h' HS'. eapply ET; [apply BACK; eassumption|auto|auto|auto].
  - (* InsertList *) unfold within, grows in Hc. rewrite Hx in *. cbn [mbind option_bind] in *. destruct Hc as (H1 & H2). apply wp_pos. eapply wp_insert_list; [assumption|exact Hr|exact HS|assumption|assumption| |].
    + intros v' h' HS' _ _. eapply DONE; [reflexivity|]. apply BACK. exact HS'.
    + intros v' ys h' HS'. eapply ET; [apply BACK; eassumption|auto|auto|auto].
  - (* Write *) rewrite Hx in *. cbn [mbind option_bind] in *. apply wp_none. eapply wp_write; [exact Hr|exact HS|assumption| |].
    + intros h' HS'. eapply DONE; [reflexivity|]. apply SAME. exact HS'.
    + eapply ES; [apply SAME; eassumption|reflexivity|auto|auto|auto].
  - (* Index *) rewrite Hx in *. cbn [mbind option_bind] in *. destruct (xs !! i) as [x|] eqn:Ei; [|destruct Hs; discriminate]. cbn [mbind option_bind] in *. apply wp_bind. eapply (wp_index tr moved); [exact Hr|exact HS|exact Ei|]. apply wp_ret. eapply DONE; [reflexivity|assumption].
  - (* At *) rewrite Hx in *. cbn [mbind option_bind] in *. apply wp_bind. eapply (wp_at tr moved); [exact Hr|exact HS|]. apply wp_ret. eapply DONE; [reflexivity|assumption].
  Unshelve. all: exact tr.
Qed.
End Step.
