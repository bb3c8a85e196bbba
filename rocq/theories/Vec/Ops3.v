(** What each operation of one vector does: assignment, erasure, element access. *)
From stdpp Require Import gmap list infinite fin_map_dom.
From Coq Require Import NArith Lia ZifyBool ZifyNat ZifyN.
From Verif.Common Require Import Word.
From Verif.Vec Require Import Model Wp Ranges Segs Ops1 Ops2.
Local Open Scope nat_scope.

Section Ops.
Context {V : Type} (tr : traits) (moved : V -> V).
Notation heap := (gmap nat (list (@cell V))).
Notation M := (@M V).
Implicit Types (mv : bool) (xs ys zs : list V) (hf h : heap) (rg : list vec) (E : heap -> list vec -> Prop) (A B C R : list (@cell V)) (a : @arg V) (v : vec).
Notation post A := (A -> heap -> list vec -> Prop).
Notation "x <- m ;; k" := (bind m (fun x => k)) (at level 100, m at next level, right associativity).
Notation "m ;;; k" := (bind m (fun _ => k)) (at level 100, right associativity).
Notation wft := (wft tr).
Notation fits := (fits tr).
Notation avail := (avail (V := V) tr).
Notation "'LV' xs" := (@Live V <$> (xs : list V)) (at level 30).
Notation St := (St (V := V) tr).
Notation argok := (argok (V := V)).

Notation src_ok := (src_ok (V := V) tr).
Notation resz := Ops2.resz.

(** assignment over the first elements *)
Lemma wp_assign_loop r v xs zs (f : nat -> @arg V) (Q : post unit) E hf h rg : rg !! r = Some v -> St v xs hf h -> length zs <= length xs ->
  (forall k x h', zs !! k = Some x -> St v (take k zs ++ drop k xs) hf h' -> aval h' (f k) x) ->
  (forall h', St v (zs ++ drop (length zs) xs) hf h' -> Q tt h' rg) ->
  (forall ys h', length ys = length xs -> St v ys hf h' -> E h' rg) ->
  wp (for_up (length zs) 0 (fun k => assign_to tr moved (at_ v k) (f k) false)) Q E h rg.
Proof.
  intros Hr HS Hl Hf HQ HE.
  eapply wp_mono; [apply (wp_for_up (length zs) 0 _ (fun k h' rg' => rg' = rg /\ St v (take k zs ++ drop k xs) hf h') E)| |].
  - intros k h1 rg1 _ Hk [-> HS1]. cbn [Nat.add] in Hk. destruct (lookup_lt_is_Some_2 zs k Hk) as [x Hx]. destruct (lookup_lt_is_Some_2 xs k) as [y Hy]; [lia|].
    specialize (Hf k x h1 Hx HS1). pose proof (St_sz _ _ _ _ HS1) as Hsz. pose proof (St_le _ _ _ _ HS1) as Hle. rewrite app_length, take_length, drop_length in Hsz.
    pose proof (St_cap _ _ _ _ HS1) as Hm. assert (Lk : length (take k zs) = k) by (rewrite take_length; lia).
    assert (HE1 : E h1 rg). { apply (HE (take k zs ++ drop k xs)); [rewrite app_length, drop_length; lia|assumption]. }
    destruct (St_blk _ _ _ _ _ HS1) as (b & R & Hb & Hh & -> & HR & Hc); [lia|]. unfold at_. rewrite Hb. cbn [default].
    rewrite (drop_S _ _ _ Hy) in *. rewrite fmap_app, <- app_assoc in *. cbn [app fmap list_fmap] in *.
    eapply (sg_assign tr moved); [rewrite fmap_length; exact Lk|exact Hf| |exact HE1].
    split; [reflexivity|]. rewrite (take_S_r _ _ _ Hx), <- app_assoc. cbn [app].
    change (Live x :: (LV drop (S k) xs) ++ R) with ((LV (x :: drop (S k) xs)) ++ R). rewrite app_assoc, <- fmap_app.
    apply St_mk; try assumption; rewrite app_length in *; cbn [length] in *; rewrite drop_length in *; lia.
  - split; [reflexivity|]. rewrite take_0, drop_0. exact HS.
  - intros [] h' rg' [-> HS']. cbn [Nat.add] in HS'. rewrite take_ge in HS' by lia. apply HQ. assumption.
  - auto.
Qed.

Lemma wp_assign_fill r v xs n a x (Q : post unit) E hf h rg : wft -> fits n -> rg !! r = Some v -> St v xs hf h -> argok hf v xs a x ->
  (forall v' h', St v' (replicate n x) hf h' -> (n <= v_cap v -> v_blk v' = v_blk v /\ v_cap v' = v_cap v) -> Q tt h' (<[r := v']> rg)) ->
  (forall v' ys h', St v' ys hf h' -> E h' (<[r := v']> rg)) -> wp (assign_fill tr moved r n a) Q E h rg.
Proof.
  intros Hw Hf Hr HS Ha HQ HE. unfold assign_fill. apply wp_bind. eapply wp_by_vt; [eassumption|eassumption|]. intros a' Ha' Hb1 Hb2. apply wp_bind. eapply wp_get; [eassumption|].
  pose proof (St_sz _ _ _ _ HS) as Hsz. pose proof (St_le _ _ _ _ HS) as Hle.
  assert (LOOP : forall m (K : post unit), m <= length xs -> (forall h', St v (replicate m x ++ drop m xs) hf h' -> K tt h' rg) -> wp (for_up m 0 (fun k => assign_to tr moved (at_ v k) a' false)) K E h rg).
  { intros m K Hm HK. replace m with (length (replicate m x)) at 1 by apply replicate_length.
    eapply (wp_assign_loop r v xs (replicate m x) (fun _ => a')); [eassumption|eassumption|rewrite replicate_length; lia| | |].
    - intros k y h' Hy HSk. apply lookup_replicate in Hy as [-> Hk]. eapply argok_aval; [exact HSk|]. destruct a' as [z|l]; [exact Ha'|]. destruct Ha' as [Ha1|[Ha1 Ha2]]; [left; assumption|right; split; [assumption|]].
      rewrite take_replicate, Nat.min_l by lia. destruct (decide (l.2 < k)); [rewrite lookup_app_l by (rewrite replicate_length; assumption); apply lookup_replicate_2; assumption|].
      rewrite lookup_app_r by (rewrite replicate_length; lia). rewrite replicate_length, lookup_drop. replace (k + (l.2 - k)) with (l.2) by lia. assumption.
    - rewrite replicate_length. exact HK.
    - intros ys h' _ HS'. rewrite <- (list_insert_id rg r v Hr). eapply HE. eassumption. }
  destruct (Nat.ltb_spec (v_cap v) n) as [Hn|Hn].
  - assert (GO : forall a2, (forall v' xs', argok hf v' xs' a2 x) -> wp (impl_reset tr r n ;;; fill_e tr moved r n a2) Q E h rg).
    { intros a2 Ha2. apply wp_bind. eapply wp_impl_reset; [assumption|assumption|eassumption|eassumption| |].
      - intros v' h' HS' Hc'. eapply wp_fill_e; [eapply lkp_ins; eassumption|eassumption|rewrite (St_sz _ _ _ _ HS'); cbn [length]; lia|apply Ha2| |].
        + intros h2 HS2. rewrite list_insert_insert. apply HQ; [assumption|lia].
        + eapply HE. eassumption.
      - eapply HE. apply St_null. }
    destruct (negb (t_byval tr) && is_internal v a') eqn:Ei.
    + apply wp_bind. eapply wp_local_copy; [eassumption|exact Ha'|discriminate| |rewrite <- (list_insert_id rg r v Hr); eapply HE; eassumption]. apply GO. reflexivity.
    + apply GO. destruct (t_byval tr); [rewrite Hb1 by reflexivity; reflexivity|]. cbn [negb andb] in Ei. eapply is_internal_own; eassumption.
  - destruct (Nat.leb_spec n (v_sz v)) as [Hn2|Hn2].
    + apply wp_bind. apply LOOP; [lia|]. intros h' HS'. eapply wp_destroy_range_e; [eassumption|exact HS'|rewrite app_length, replicate_length; lia|].
      intros h2 HS2. rewrite take_app_alt in HS2 by (rewrite replicate_length; reflexivity). apply HQ; [assumption|auto].
    + apply wp_bind. rewrite Hsz. apply LOOP; [lia|]. intros h' HS'. rewrite drop_all, app_nil_r in HS'.
      eapply (wp_fill_e tr moved r v _ _ a' x); [eassumption|exact HS'|lia| | |].
      * destruct a' as [z|l]; [exact Ha'|]. destruct Ha' as [Ha1|[Ha1 Ha2]]; [left; assumption|right; split; [assumption|]]. apply lookup_replicate_2. apply lookup_lt_Some in Ha2. assumption.
      * intros h2 HS2. rewrite <- replicate_add in HS2. replace (length xs + (n - length xs)) with n in HS2 by lia. apply HQ; [assumption|auto].
      * rewrite <- (list_insert_id rg r v Hr). eapply HE. eassumption.
Qed.
Lemma wp_assign_list r v xs zs (Q : post unit) E hf h rg : wft -> fits (length zs) -> rg !! r = Some v -> St v xs hf h ->
  (forall v' h', St v' zs hf h' -> (length zs <= v_cap v -> v_blk v' = v_blk v /\ v_cap v' = v_cap v) -> Q tt h' (<[r := v']> rg)) ->
  (forall v' ys h', St v' ys hf h' -> E h' (<[r := v']> rg)) -> wp (assign_list tr moved r zs) Q E h rg.
Proof.
  intros Hw Hf Hr HS HQ HE. unfold assign_list. apply wp_bind. eapply wp_get; [eassumption|].
  pose proof (St_sz _ _ _ _ HS) as Hsz. pose proof (St_le _ _ _ _ HS) as Hle.
  assert (HE0 : forall ys h', length ys = length xs -> St v ys hf h' -> E h' rg) by (intros ys h' _ HS'; rewrite <- (list_insert_id rg r v Hr); eapply HE; eassumption).
  destruct (Nat.ltb_spec (v_cap v) (length zs)) as [Hn|Hn].
  - apply wp_bind. eapply wp_impl_reset; [assumption|assumption|eassumption|eassumption| |].
    + intros v' h' HS' Hc'. eapply wp_copy_list_e; [eapply lkp_ins; eassumption|eassumption|rewrite (St_sz _ _ _ _ HS'); cbn [length]; lia| |].
      * intros h2 HS2. rewrite list_insert_insert. apply HQ; [assumption|lia].
      * eapply HE. eassumption.
    + eapply HE. apply St_null.
  - destruct (Nat.leb_spec (length zs) (v_sz v)) as [Hn2|Hn2].
    + apply wp_bind. eapply (wp_assign_loop r v xs zs); [eassumption|eassumption|lia| | |exact HE0].
      * intros k x h' Hx _. rewrite Hx. reflexivity.
      * intros h' HS'. eapply wp_destroy_range_e; [eassumption|exact HS'|rewrite app_length; lia|].
        intros h2 HS2. rewrite take_app_alt in HS2 by reflexivity. apply HQ; [assumption|auto].
    + apply wp_bind. replace (v_sz v) with (length (take (v_sz v) zs)) at 1 by (rewrite take_length; lia).
      eapply (wp_assign_loop r v xs (take (v_sz v) zs)); [eassumption|eassumption|rewrite take_length; lia| | |exact HE0].
      * intros k x h' Hx _. rewrite lookup_take_Some in Hx. destruct Hx as [Hx _]. rewrite Hx. reflexivity.
      * intros h' HS'. rewrite drop_ge in HS' by (rewrite take_length; lia). rewrite app_nil_r in HS'.
        eapply (wp_copy_list_e tr moved r v); [eassumption|exact HS'|rewrite drop_length; lia| |].
        -- intros h2 HS2. rewrite take_drop in HS2. apply HQ; [assumption|auto].
        -- eapply HE0; [|exact HS']. rewrite take_length. lia.
Qed.
Lemma wp_copy_assign r q v o xs zs (Q : post unit) E hf h rg : wft -> r <> q -> rg !! r = Some v -> rg !! q = Some o -> St v xs hf h -> src_ok hf o zs ->
  (forall v' h', St v' zs hf h' -> (length zs <= v_cap v -> v_blk v' = v_blk v /\ v_cap v' = v_cap v) -> Q tt h' (<[r := v']> rg)) ->
  (forall v' ys h', St v' ys hf h' -> E h' (<[r := v']> rg)) -> wp (copy_assign tr moved r q) Q E h rg.
Proof.
  intros Hw Hrq Hr Hq HS Ho HQ HE. pose proof (src_fits tr _ _ _ Hw Ho) as Hf. destruct Ho as (Hz & _ & Ho). unfold copy_assign. destruct (Nat.eqb_spec r q); [contradiction|].
  apply wp_bind. eapply wp_get; [exact Hr|]. apply wp_bind. eapply wp_get; [exact Hq|]. rewrite Hz.
  pose proof (St_sz _ _ _ _ HS) as Hsz. pose proof (St_le _ _ _ _ HS) as Hle.
  assert (HE0 : forall ys h', length ys = length xs -> St v ys hf h' -> E h' rg) by (intros ys h' _ HS'; rewrite <- (list_insert_id rg r v Hr); eapply HE; eassumption).
  assert (ARG : forall k x ys h', zs !! k = Some x -> St v ys hf h' -> aval h' (Ref (at_ o k)) x).
  { intros k x ys h' Hx HS'. eapply argok_aval; [exact HS'|]. left. destruct Ho as (b & R & Hb & Hh); [apply lookup_lt_Some in Hx; lia|]. unfold at_, cellat. rewrite Hb. cbn [default fst snd]. change (id b) with b. rewrite Hh.
    rewrite lookup_app_l by (rewrite fmap_length; apply lookup_lt_Some in Hx; assumption). rewrite list_lookup_fmap, Hx. reflexivity. }
  assert (SEG : forall j, j <= length zs -> 0 < length (drop j zs) -> exists A' C', hf !! default 0 (v_blk o) = Some (A' ++ LV drop j zs ++ C') /\ length A' = j).
  { intros j Hj Hp. destruct Ho as (b & R & Hb & Hh); [rewrite drop_length in Hp; lia|]. rewrite Hb. cbn [default]. change (id b) with b. exists (LV take j zs), R. rewrite Hh, app_assoc, <- fmap_app, take_drop. split; [reflexivity|]. rewrite fmap_length, take_length. lia. }
  assert (CP : forall r0 j v1 ys h1 rg1 (K : post unit) , j <= length zs -> rg1 !! r0 = Some v1 -> St v1 ys hf h1 -> v_sz v1 + length (drop j zs) <= v_cap v1 ->
     (forall h', St (resz v1 (v_sz v1 + length (drop j zs))) (ys ++ drop j zs) hf h' -> K tt h' (<[r0 := resz v1 (v_sz v1 + length (drop j zs))]> rg1)) -> E h1 rg1 ->
     wp (copy_e tr moved r0 (default 0 (v_blk o)) j (length zs - j)) K E h1 rg1).
  { intros r0 j v1 ys h1 rg1 K Hj Hr1 HS1 Hc1 HK HE1. rewrite <- drop_length. destruct (Nat.eq_dec (length (drop j zs)) 0) as [E0|E0].
    - eapply (wp_copy_e tr moved r0 v1 ys _ j [] (drop j zs) []); [assumption|exact HS1|assumption|lia|assumption|assumption].
    - destruct (SEG j Hj) as (A' & C' & HA & LA); [lia|]. eapply (wp_copy_e tr moved r0 v1 ys _ j A' (drop j zs) C'); [assumption|exact HS1|assumption|auto|assumption|assumption]. }
  destruct (Nat.ltb_spec (v_cap v) (length zs)) as [Hn|Hn].
  - apply wp_bind. eapply wp_impl_reset; [assumption|assumption|eassumption|eassumption| |].
    + intros v' h' HS' Hc'. pose proof (CP r 0 v' [] h' (<[r := v']> rg) Q) as C0. rewrite drop_0, Nat.sub_0_r in C0. apply C0; [lia|eapply lkp_ins; eassumption|assumption|rewrite (St_sz _ _ _ _ HS'); cbn [length]; lia| |].
      * intros h2 HS2. rewrite list_insert_insert. apply HQ; [assumption|lia].
      * eapply HE. eassumption.
    + eapply HE. apply St_null.
  - destruct (Nat.leb_spec (length zs) (v_sz v)) as [Hn2|Hn2].
    + apply wp_bind. eapply (wp_assign_loop r v xs zs (fun k => Ref (at_ o k))); [eassumption|eassumption|lia| | |exact HE0].
      * intros k x h' Hx HS'. eapply ARG; eassumption.
      * intros h' HS'. eapply wp_destroy_range_e; [eassumption|exact HS'|rewrite app_length; lia|].
        intros h2 HS2. rewrite take_app_alt in HS2 by reflexivity. apply HQ; [assumption|auto].
    + apply wp_bind. replace (v_sz v) with (length (take (v_sz v) zs)) at 1 by (rewrite take_length; lia).
      eapply (wp_assign_loop r v xs (take (v_sz v) zs) (fun k => Ref (at_ o k))); [eassumption|eassumption|rewrite take_length; lia| | |exact HE0].
      * intros k x h' Hx HS'. rewrite lookup_take_Some in Hx. destruct Hx as [Hx _]. eapply ARG; eassumption.
      * intros h' HS'. rewrite drop_ge in HS' by (rewrite take_length; lia). rewrite app_nil_r in HS'.
        eapply CP; [lia|eassumption|exact HS'|rewrite drop_length; lia| |].
        -- intros h2 HS2. rewrite take_drop in HS2. apply HQ; [assumption|auto].
        -- eapply HE0; [|exact HS']. rewrite take_length. lia.
Qed.
Lemma wp_push_list mv zs : forall r v xs (Q : post unit) E hf h rg, wft -> rg !! r = Some v -> St v xs hf h ->
  (forall v' h', St v' (xs ++ zs) hf h' -> Q tt h' (<[r := v']> rg)) ->
  (forall v' ys h', St v' ys hf h' -> E h' (<[r := v']> rg)) -> wp (push_list tr moved r zs mv) Q E h rg.
Proof.
  induction zs as [|z zs IH]; intros r v xs Q E hf h rg Hw Hr HS HQ HE; cbn [push_list].
  - apply wp_skip. rewrite <- (list_insert_id rg r v Hr). apply HQ. rewrite app_nil_r. assumption.
  - apply wp_bind. eapply (wp_push_back tr moved r v xs (Val z) mv z); [assumption|eassumption|eassumption|reflexivity|intros _; eexists; reflexivity| |].
    + intros v' h' HS' _ _. eapply IH; [assumption|eapply lkp_ins; eassumption|exact HS'| |].
      * intros v2 h2 HS2. rewrite list_insert_insert. rewrite <- app_assoc in HS2. apply HQ. assumption.
      * intros v2 ys h2 HS2. rewrite list_insert_insert. eapply HE. eassumption.
    + intros h' (ys & _ & _ & HS'). rewrite <- (list_insert_id rg r v Hr). eapply HE. eassumption.
Qed.
Lemma wp_ctor_input r v0 zs (Q : post unit) E h rg : wft -> rg !! r = Some v0 ->
  (forall v' h', St v' zs h h' -> Q tt h' (<[r := v']> rg)) -> E h (<[r := mkV None 0 0]> rg) -> wp (ctor_input tr moved r zs) Q E h rg.
Proof.
  intros Hw Hr HQ HE. unfold ctor_input. apply wp_bind. eapply wp_set; [eassumption|]. apply wp_guarded. eapply (wp_push_list false zs r _ []); [assumption|eapply lkp_ins; eassumption|apply St_null| |].
  - intros v' h' HS'. rewrite list_insert_insert. apply HQ. exact HS'.
  - intros v' ys h' HS'. rewrite list_insert_insert. eapply wp_impl_reset0; [eapply lkp_ins; eassumption|exact HS'|]. rewrite list_insert_insert. assumption.
Qed.
Lemma wp_assign_input r v xs zs (Q : post unit) E hf h rg : wft -> rg !! r = Some v -> St v xs hf h ->
  (forall v' h', St v' zs hf h' -> Q tt h' (<[r := v']> rg)) ->
  (forall v' ys h', St v' ys hf h' -> E h' (<[r := v']> rg)) -> wp (assign_input tr moved r zs) Q E h rg.
Proof.
  intros Hw Hr HS HQ HE. unfold assign_input. apply wp_bind. eapply wp_get; [eassumption|].
  pose proof (St_sz _ _ _ _ HS) as Hsz. pose proof (St_le _ _ _ _ HS) as Hle. set (n := length zs `min` v_sz v).
  apply wp_bind. replace n with (length (take n zs)) at 1 by (rewrite take_length; unfold n; lia).
  eapply (wp_assign_loop r v xs (take n zs)); [eassumption|eassumption|rewrite take_length; unfold n; lia| | |].
  - intros k x h' Hx _. rewrite lookup_take_Some in Hx. destruct Hx as [Hx _]. rewrite Hx. reflexivity.
  - intros h' HS'. replace (length (take n zs)) with n in HS' by (rewrite take_length; unfold n; lia).
    assert (Lt : length (take n zs) = n) by (rewrite take_length; unfold n; lia).
    destruct (Nat.eqb_spec n (v_sz v)) as [En|En]; cbn [negb].
    + rewrite (drop_ge xs) in HS' by lia. rewrite app_nil_r in HS'. eapply (wp_push_list false (drop n zs)); [assumption|eassumption|exact HS'| |exact HE]. intros v' h2 HS2. rewrite take_drop in HS2. apply HQ. assumption.
    + eapply wp_destroy_range_e; [eassumption|exact HS'|rewrite app_length; lia|]. intros h2 HS2. rewrite take_app_alt in HS2 by (symmetry; assumption). rewrite take_ge in HS2 by (unfold n in *; lia). apply HQ. assumption.
  - intros ys h' _ HS'. rewrite <- (list_insert_id rg r v Hr). eapply HE. eassumption.
Qed.
End Ops.
