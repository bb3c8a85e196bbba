(** What each operation of one vector does: capacity, push_back, construction, destruction. *)
From stdpp Require Import gmap list infinite fin_map_dom.
From Coq Require Import NArith Lia ZifyBool ZifyNat ZifyN.
From Verif.Common Require Import Word.
From Verif.Vec Require Import Model Wp Ranges Segs.
Local Open Scope nat_scope.

Section Caps.
Context (tr : traits).
(** what the element type and the allocator must satisfy *)
Definition wft : Prop := (0 < t_size tr < 2 ^ 63 /\ t_max tr < 2 ^ 63)%N.
(** [n] objects have a size that fits in size_t *)
Definition fits (n : nat) : Prop := (N.of_nat n * t_size tr < 2 ^ 64)%N.
Lemma good_cap_fits n : wft -> fits n -> good_cap tr n = n.
Proof.
  intros [Hs _] Hf. unfold good_cap, fits in *. unfold wmul, wmod. rewrite N.mod_small by assumption. rewrite N.div_mul by lia. lia.
Qed.
Lemma push_back_cap_ok cap : wft -> (N.of_nat cap * t_size tr <= t_max tr)%N -> fits (push_back_cap tr cap) /\ (cap < push_back_cap tr cap) /\ (cap <> 0 -> 3 * cap <= 2 * push_back_cap tr cap).
Proof.
  intros [[Hs1 Hs2] Hm] Hc. unfold fits, push_back_cap. set (s := t_size tr) in *. set (c := N.of_nat cap) in *.
  assert (Hcap : cap = N.to_nat c) by (unfold c; lia).
  assert (Hcs : (c * s < 2 ^ 63)%N) by lia. assert (Hc2 : (c < 2 ^ 63)%N) by nia.
  destruct (N.eqb_spec c 0) as [E0|E0].
  - assert (cap = 0) by lia. rewrite N2Nat.id. pose proof (N.mul_div_le 64 s). assert ((N.max (64 / s) 1 * s <= N.max 64 s)%N) by (destruct (N.max_spec (64 / s) 1) as [[? ->]|[? ->]]; nia).
    split; [lia|]. split; [|lia]. lia.
  - assert (W2 : wmul 64 c 2 = (c * 2)%N). { unfold wmul, wmod. apply N.mod_small. lia. }
    destruct (N.ltb_spec c (4096 / s)); [rewrite W2; split; [rewrite N2Nat.id; nia|lia]|].
    destruct (N.ltb_spec (4096 * 32 / s) c) as [H4|H4]; [rewrite W2; split; [rewrite N2Nat.id; nia|lia]|].
    assert (c <= 131072)%N. { pose proof (N.div_le_upper_bound (4096 * 32) s 131072). assert (4096 * 32 / s <= 131072)%N by (apply N.div_le_upper_bound; nia). lia. }
    assert (W3 : wmul 64 c 3 = (c * 3)%N). { unfold wmul, wmod. apply N.mod_small. lia. }
    assert (W4 : wadd 64 (c * 3) 1 = (c * 3 + 1)%N). { unfold wadd, wmod. apply N.mod_small. lia. }
    rewrite W3, W4, N2Nat.id. assert ((c * 3 + 1) / 2 <= 2 * c)%N by (apply N.div_le_upper_bound; lia). assert (3 * c <= 2 * ((c * 3 + 1) / 2))%N by (pose proof (N.div_mod (c * 3 + 1) 2); pose proof (N.mod_lt (c * 3 + 1) 2); lia).
    split; [nia|]. split; lia.
Qed.

End Caps.

Section Basics.
Context {V : Type} (tr : traits).
Notation heap := (gmap nat (list (@cell V))).
Notation M := (@M V).
Implicit Types (mv : bool) (xs ys : list V) (hf h : heap) (rg : list vec) (E : heap -> list vec -> Prop) (A B C R : list (@cell V)) (a : @arg V) (v : vec).
Notation post A := (A -> heap -> list vec -> Prop).
Notation "x <- m ;; k" := (bind m (fun x => k)) (at level 100, m at next level, right associativity).
Notation "m ;;; k" := (bind m (fun _ => k)) (at level 100, right associativity).
Notation wft := (wft tr).
Notation fits := (fits tr).
Notation avail := (avail (V := V) tr).
Notation "'LV' xs" := (@Live V <$> (xs : list V)) (at level 30).

(** the vector [v] owns the block of [h] that is not in [hf]; it holds [xs] *)
Definition St v xs hf h : Prop :=
  length xs = v_sz v /\ (N.of_nat (v_cap v) * t_size tr <= t_max tr)%N /\
  match v_blk v with
  | None => h = hf /\ v_sz v = 0 /\ v_cap v = 0
  | Some b => hf !! b = None /\ exists R, h = <[b := LV xs ++ R]> hf /\ Forall avail R /\ length xs + length R = v_cap v
  end.
(** the same after the objects are gone *)
Definition dead v hf h : Prop :=
  match v_blk v with
  | None => h = hf
  | Some b => hf !! b = None /\ exists cs, h = <[b := cs]> hf /\ Forall avail cs /\ length cs = v_cap v
  end.
Lemma St_null hf : St (mkV None 0 0) [] hf hf.
Proof. split; [reflexivity|]. split; [cbn [v_cap]; lia|]. cbn. auto. Qed.
Lemma St_sz v xs hf h : St v xs hf h -> v_sz v = length xs. Proof. intros (H & _). auto. Qed.
Lemma St_le v xs hf h : St v xs hf h -> v_sz v <= v_cap v.
Proof. intros (H & _ & H2). destruct (v_blk v); [|lia]. destruct H2 as (_ & R & _ & _ & HR). lia. Qed.
Lemma St_cap v xs hf h : St v xs hf h -> (N.of_nat (v_cap v) * t_size tr <= t_max tr)%N. Proof. intros (_ & H & _). exact H. Qed.
Lemma St_zero v xs hf h : St v xs hf h -> v_cap v = 0 -> xs = [].
Proof. intros H Hc. pose proof (St_le _ _ _ _ H). pose proof (St_sz _ _ _ _ H). destruct xs; [reflexivity|cbn [length] in *; lia]. Qed.
Lemma St_fresh v xs hf h nb : St v xs hf h -> h !! nb = None -> hf !! nb = None /\ v_blk v <> Some nb.
Proof.
  intros (_ & _ & H) Hn. destruct (v_blk v) as [b|]; [|destruct H as (-> & _); split; [assumption|discriminate]].
  destruct H as (Hb & R & -> & _). destruct (decide (b = nb)) as [->|Hne]; [rewrite lookup_insert in Hn; discriminate|]. rewrite lookup_insert_ne in Hn by assumption. split; [assumption|congruence].
Qed.
Lemma Forall_avail_lookup B : Forall avail B -> forall i c, B !! i = Some c -> avail c.
Proof. intros H i c Hi. exact (Forall_lookup_1 _ _ _ _ H Hi). Qed.

Lemma wp_impl_destroy r v xs (Q : post unit) E hf h rg : rg !! r = Some v -> St v xs hf h -> Q tt hf rg -> wp (impl_destroy tr r) Q E h rg.
Proof.
  intros Hr (Hl & _ & Hs) HQ. unfold impl_destroy. apply wp_bind. eapply wp_get; [eassumption|]. destruct (v_blk v) as [b|].
  - destruct Hs as (Hb & R & -> & HR & Hc). apply wp_bind. apply (sg_destroy_range tr b 0 (v_sz v) [] xs R); [reflexivity|assumption|]. intros B LB HB.
    eapply wp_deallocate; [apply lookup_insert| |apply Forall_avail_lookup|].
    + cbn [app]. rewrite app_length. lia.
    + cbn [app]. apply Forall_app. auto.
    + rewrite delete_insert by assumption. assumption.
  - destruct Hs as (-> & _). apply wp_skip. assumption.
Qed.
Lemma wp_impl_reset0 r v xs (Q : post unit) E hf h rg : rg !! r = Some v -> St v xs hf h -> Q tt hf (<[r := mkV None 0 0]> rg) -> wp (impl_reset0 tr r) Q E h rg.
Proof. intros Hr HS HQ. unfold impl_reset0. apply wp_bind. eapply wp_impl_destroy; [eassumption..|]. eapply wp_set; [eassumption|]. assumption. Qed.
Lemma wp_dtor r v xs (Q : post unit) E hf h rg : rg !! r = Some v -> St v xs hf h -> Q tt hf (<[r := mkV None 0 0]> rg) -> wp (dtor tr r) Q E h rg.
Proof. exact (wp_impl_reset0 r v xs Q E hf h rg). Qed.
Lemma wp_impl_init r v0 n (Q : post unit) E h rg : wft -> fits n -> rg !! r = Some v0 ->
  (forall v' h', St v' [] h h' -> v_cap v' = n -> Q tt h' (<[r := v']> rg)) -> E h rg -> wp (impl_init tr r n) Q E h rg.
Proof.
  intros Hw Hf Hr HQ HE. unfold impl_init. destruct (Nat.eqb_spec n 0) as [->|Hn].
  - eapply wp_set; [eassumption|]. apply HQ; [apply St_null|reflexivity].
  - rewrite good_cap_fits by assumption. apply wp_bind. apply wp_allocate; [|assumption]. intros b Hm Hb. eapply wp_set; [eassumption|]. apply HQ; [|reflexivity].
    split; [reflexivity|]. split; [exact Hm|]. cbn [v_blk v_cap]. split; [assumption|]. exists (replicate n Raw). split; [reflexivity|]. split; [apply raw_avail|]. rewrite replicate_length. reflexivity.
Qed.
Lemma wp_impl_reset r v xs n (Q : post unit) E hf h rg : wft -> fits n -> rg !! r = Some v -> St v xs hf h ->
  (forall v' h', St v' [] hf h' -> v_cap v' = n -> Q tt h' (<[r := v']> rg)) -> E hf (<[r := mkV None 0 0]> rg) -> wp (impl_reset tr r n) Q E h rg.
Proof.
  intros Hw Hf Hr HS HQ HE. unfold impl_reset. apply wp_bind. eapply wp_impl_destroy; [eassumption..|]. apply wp_guarded. eapply wp_impl_init; [assumption|assumption|eassumption|assumption|].
  eapply wp_set; [eassumption|]. assumption.
Qed.

(** old block freed, new block in place *)
Lemma wp_free_old v nb cs n (Q : post unit) E hf h1 rg : dead v hf h1 -> v_blk v <> Some nb -> n = v_cap v -> Q tt (<[nb := cs]> hf) rg ->
  wp (match v_blk v with Some b => deallocate tr b n | None => skip end) Q E (<[nb := cs]> h1) rg.
Proof.
  intros Hd Hnb -> HQ. unfold dead in Hd. destruct (v_blk v) as [b|]; [|subst h1; apply wp_skip; assumption].
  destruct Hd as (Hb & ds & -> & Hf & Hl). assert (nb <> b) by congruence.
  eapply wp_deallocate; [rewrite lookup_insert_ne by assumption; apply lookup_insert|assumption|apply Forall_avail_lookup; assumption|].
  rewrite delete_insert_ne by congruence. rewrite delete_insert by assumption. assumption.
Qed.
(** arguments: objects elsewhere, in blocks of other vectors, or of this vector *)
Definition argok hf v xs a x : Prop :=
  match a with Val y => y = x | Ref l => cellat hf l = Some (Live x) \/ (v_blk v = Some l.1 /\ xs !! l.2 = Some x) end.
Lemma argok_aval hf v xs a x h : St v xs hf h -> argok hf v xs a x -> aval h a x.
Proof.
  intros (_ & _ & HS) Ha. destruct a as [y|l]; [exact Ha|]. cbn [argok aval] in *. destruct Ha as [Ha|[Hb Ha]].
  - destruct (v_blk v) as [b|]; [|destruct HS as (-> & _); assumption]. destruct HS as (Hb & R & -> & _). destruct (decide (l.1 = b)) as [E|E]; [|rewrite cell_other; assumption].
    unfold cellat in Ha. rewrite E, Hb in Ha. discriminate.
  - rewrite Hb in HS. destruct HS as (_ & R & -> & _). unfold cellat. rewrite lookup_insert. rewrite lookup_app_l by (rewrite fmap_length; apply lookup_lt_Some in Ha; assumption). rewrite list_lookup_fmap, Ha. reflexivity.
Qed.
Lemma argok_new hf v xs a x h nb cs : St v xs hf h -> h !! nb = None -> argok hf v xs a x -> aval (<[nb := cs]> h) a x /\ forall l, a = Ref l -> l.1 <> nb.
Proof.
  intros HS Hn Ha. pose proof (argok_aval _ _ _ _ _ _ HS Ha) as Hv. destruct a as [y|l]; [split; [exact Hv|discriminate]|]. cbn [aval] in *.
  assert (l.1 <> nb). { intros E. unfold cellat in Hv. rewrite E, Hn in Hv. discriminate. }
  split; [rewrite cell_other; assumption|]. intros l' [= <-]. assumption.
Qed.
Lemma argok_st hf v xs a x xs' v' : argok hf v xs a x -> v_blk v' = v_blk v -> (forall i y, xs !! i = Some y -> xs' !! i = Some y) -> argok hf v' xs' a x.
Proof. intros Ha Hb Hx. destruct a as [y|l]; [exact Ha|]. cbn [argok] in *. rewrite Hb. destruct Ha as [Ha|[H1 H2]]; [left; assumption|right; auto]. Qed.

End Basics.
Arguments St_sz {V tr}. Arguments St_le {V tr}. Arguments St_cap {V tr}. Arguments St_zero {V tr}. Arguments St_fresh {V tr}. Arguments argok_aval {V tr}. Arguments argok_new {V tr}. Arguments argok_st {V}.
Arguments wp_free_old {V} tr.

Section Ops.
Context {V : Type} (tr : traits) (moved : V -> V).
Notation heap := (gmap nat (list (@cell V))).
Notation M := (@M V).
Implicit Types (mv : bool) (xs ys : list V) (hf h : heap) (rg : list vec) (E : heap -> list vec -> Prop) (A B C R : list (@cell V)) (a : @arg V) (v : vec).
Notation post A := (A -> heap -> list vec -> Prop).
Notation "x <- m ;; k" := (bind m (fun x => k)) (at level 100, m at next level, right associativity).
Notation "m ;;; k" := (bind m (fun _ => k)) (at level 100, right associativity).
Notation wft := (wft tr).
Notation fits := (fits tr).
Notation avail := (avail (V := V) tr).
Notation "'LV' xs" := (@Live V <$> (xs : list V)) (at level 30).

Notation St := (St (V := V) tr).
Notation dead := (dead (V := V) tr).
Lemma wp_relocate r v xs nb B C (Q : post unit) E hf h0 rg : rg !! r = Some v -> St v xs hf h0 -> h0 !! nb = None -> length B = v_sz v -> Forall avail B ->
  (forall h1, dead v hf h1 -> Q tt (<[nb := LV xs ++ C]> h1) rg) ->
  (forall ys h1, length ys = length xs -> (strong tr = true -> ys = xs) -> St v ys hf h1 -> E (<[nb := B ++ C]> h1) rg) ->
  wp (relocate tr moved r nb) Q E (<[nb := B ++ C]> h0) rg.
Proof.
  intros Hr HS Hnb LB HB HQ HE. destruct (St_fresh _ _ _ _ _ HS Hnb) as [Hn1 Hn2]. destruct HS as (Hl & Hm & HS). unfold relocate. apply wp_bind. eapply wp_get; [eassumption|].
  unfold dead, St in *. destruct (v_blk v) as [b|] eqn:Ev.
  - destruct HS as (Hb & R & -> & HR & Hc). assert (nb <> b) by congruence. apply wp_bind.
    apply (sg_relocate_move tr moved nb b 0 0 (v_sz v) [] B C [] xs R); try assumption; try reflexivity.
    + intros ys Ly _. rewrite insert_commute by congruence. apply (sg_relocate_done tr b 0 (v_sz v) [] ys R); [reflexivity|assumption|]. intros B' LB' HB'. cbn [app].
      rewrite insert_commute by congruence. apply HQ. split; [assumption|]. eexists. split; [reflexivity|]. split; [apply Forall_app; auto|]. rewrite app_length. lia.
    + intros ys Ly St1 _ _. cbn [app]. apply (HE ys); [congruence|assumption|]. split; [assumption|]. split; [assumption|]. split; [assumption|]. exists R. split; [reflexivity|]. split; [assumption|lia].
  - destruct HS as (-> & Hz & Hc). apply wp_skip. assert (xs = []) as -> by (destruct xs; [reflexivity|cbn [length] in *; lia]). assert (B = []) as -> by (destruct B; [reflexivity|cbn [length] in *; lia]).
    apply HQ. reflexivity.
Qed.

Definition same_or_strong v xs hf h' : Prop := exists ys, length ys = length xs /\ (strong tr = true -> ys = xs) /\ St v ys hf h'.
Lemma sos_refl v xs hf h : St v xs hf h -> same_or_strong v xs hf h.
Proof. intros H. exists xs. auto. Qed.

Lemma wp_reserve r v xs n (Q : post unit) E hf h rg : wft -> fits n -> rg !! r = Some v -> St v xs hf h ->
  (forall v' h', St v' xs hf h' -> v_cap v' = Nat.max (v_cap v) n -> (n <= v_cap v -> v' = v) -> Q tt h' (<[r := v']> rg)) ->
  (forall h', v_cap v < n -> same_or_strong v xs hf h' -> E h' rg) -> wp (reserve tr moved r n) Q E h rg.
Proof.
  intros Hw Hf Hr HS HQ HE. unfold reserve. apply wp_bind. eapply wp_get; [eassumption|]. destruct (Nat.leb_spec n (v_cap v)) as [Hn|Hn].
  - apply wp_skip. rewrite <- (list_insert_id rg r v Hr). apply HQ; [assumption|lia|auto].
  - rewrite good_cap_fits by assumption. apply wp_bind. apply wp_allocate; [|apply HE; [assumption|apply sos_refl; assumption]]. intros nb Hm Hnb.
    pose proof (St_le _ _ _ _ HS) as Hle. pose proof (St_sz _ _ _ _ HS) as Hsz. destruct (St_fresh _ _ _ _ _ HS Hnb) as [Hn1 Hn2].
    apply wp_bind. apply wp_guarded.
    replace n with (v_sz v + (n - v_sz v)) at 1 by lia. rewrite replicate_add.
    eapply wp_relocate; [eassumption|exact HS|assumption|apply replicate_length|apply raw_avail| |].
    + intros h1 Hd. unfold install. apply wp_bind. eapply wp_get; [eassumption|]. apply wp_bind. eapply wp_free_old; [exact Hd|assumption|reflexivity|]. eapply wp_set; [eassumption|].
      apply HQ; [|cbn [v_cap]; lia|lia]. split; [cbn [v_sz]; congruence|]. split; [exact Hm|]. cbn [v_blk v_cap]. split; [assumption|]. eexists. split; [reflexivity|]. split; [apply raw_avail|]. rewrite replicate_length. lia.
    + intros ys h1 Ly Hst HS1. assert (Hn3 : h1 !! nb = None). { destruct HS1 as (_ & _ & HS1). destruct (v_blk v) as [b|]; [|destruct HS1 as (-> & _); assumption]. destruct HS1 as (_ & R & -> & _). rewrite lookup_insert_ne by congruence. assumption. }
      eapply wp_deallocate; [apply lookup_insert|rewrite app_length, !replicate_length; lia|apply Forall_avail_lookup, Forall_app; split; apply raw_avail|].
      rewrite delete_insert by assumption. apply HE; [assumption|]. exists ys. auto.
Qed.
Lemma wp_shrink_to_fit r v xs (Q : post unit) E hf h rg : wft -> rg !! r = Some v -> St v xs hf h ->
  (forall v' ys h', length ys = length xs -> (strong tr = true -> ys = xs) -> St v' ys hf h' -> v_cap v' <= v_cap v -> Q tt h' (<[r := v']> rg)) ->
  wp (shrink_to_fit tr moved r) Q E h rg.
Proof.
  intros Hw Hr HS HQ. unfold shrink_to_fit. apply wp_bind. eapply wp_get; [eassumption|]. pose proof (St_le _ _ _ _ HS) as Hle. pose proof (St_sz _ _ _ _ HS) as Hsz.
  destruct (Nat.eqb_spec (v_sz v) 0) as [Hz|Hz].
  - eapply wp_impl_reset0; [eassumption|exact HS|]. apply (HQ _ []); [|intros _|apply St_null|cbn [v_cap]; lia]; destruct xs; try reflexivity; cbn [length] in *; lia.
  - assert (Hf : fits (v_sz v)). { pose proof (St_cap _ _ _ _ HS). destruct Hw as [? ?]. unfold fits. clear HQ. nia. }
    rewrite good_cap_fits by assumption. assert (Hsame : Q tt h rg). { rewrite <- (list_insert_id rg r v Hr). apply (HQ v xs); auto. }
    destruct (Nat.leb_spec (v_cap v) (v_sz v)) as [Hc|Hc]; [apply wp_skip; assumption|].
    apply wp_bind. apply wp_catch. apply wp_bind. apply wp_allocate; [|apply wp_ret; apply wp_skip; assumption]. intros nb Hm Hnb. apply wp_ret.
    destruct (St_fresh _ _ _ _ _ HS Hnb) as [Hn1 Hn2]. apply wp_bind. apply wp_catch. apply wp_bind.
    rewrite <- (app_nil_r (replicate (v_sz v) Raw)).
    eapply wp_relocate; [eassumption|exact HS|assumption|apply replicate_length|apply raw_avail| |].
    + intros h1 Hd. apply wp_ret. unfold install. apply wp_bind. eapply wp_get; [eassumption|]. apply wp_bind. eapply wp_free_old; [exact Hd|assumption|reflexivity|]. eapply wp_set; [eassumption|].
      apply (HQ _ xs); [reflexivity|reflexivity| |cbn [v_cap]; lia]. split; [cbn [v_sz]; congruence|]. split; [exact Hm|]. cbn [v_blk v_cap]. split; [assumption|]. exists []. split; [reflexivity|]. split; [constructor|]. cbn [length]. lia.
    + intros ys h1 Ly Hst HS1. assert (Hn3 : h1 !! nb = None). { destruct HS1 as (_ & _ & HS1). destruct (v_blk v) as [b|]; [|destruct HS1 as (-> & _); assumption]. destruct HS1 as (_ & R & -> & _). rewrite lookup_insert_ne by congruence. assumption. }
      apply wp_bind. eapply wp_deallocate; [apply lookup_insert|rewrite app_length, !replicate_length; cbn [length]; lia|apply Forall_avail_lookup, Forall_app; split; [apply raw_avail|constructor]|].
      rewrite delete_insert by assumption. apply wp_ret. apply wp_skip. rewrite <- (list_insert_id rg r v Hr). apply (HQ v ys); auto.
Qed.

Lemma wp_push_back r v xs a mv x (Q : post unit) E hf h rg : wft -> rg !! r = Some v -> St v xs hf h -> argok hf v xs a x -> (mv = true -> exists y, a = Val y) ->
  (forall v' h', St v' (xs ++ [x]) hf h' -> (length xs < v_cap v -> v_blk v' = v_blk v /\ v_cap v' = v_cap v) -> (length xs = v_cap v -> v_cap v' = push_back_cap tr (v_cap v)) -> Q tt h' (<[r := v']> rg)) ->
  (forall h', same_or_strong v xs hf h' -> E h' rg) ->
  wp (push_back tr moved r a mv) Q E h rg.
Proof.
  intros Hw Hr HS Ha Hmv HQ HE. unfold push_back. apply wp_bind. eapply wp_get; [eassumption|]. pose proof (St_le _ _ _ _ HS) as Hle. pose proof (St_sz _ _ _ _ HS) as Hsz.
  destruct (Nat.eqb_spec (v_sz v) (v_cap v)) as [Hc|Hc].
  - unfold emplace_back_aux. apply wp_bind. eapply wp_get; [eassumption|].
    destruct (push_back_cap_ok tr (v_cap v) Hw (St_cap _ _ _ _ HS)) as (Hf & Hg & _). rewrite good_cap_fits by assumption. set (n := push_back_cap tr (v_cap v)) in *.
    apply wp_bind. apply wp_allocate; [|apply HE, sos_refl; assumption]. intros nb Hm Hnb. destruct (St_fresh _ _ _ _ _ HS Hnb) as [Hn1 Hn2].
    assert (FREE : forall v1 h1, dead v hf h1 -> v1 = mkV (Some nb) (S (v_sz v)) n ->
        wp ((match v_blk v with Some b => deallocate tr b (v_sz v) | None => skip end) ;;; set r v1) Q E (<[nb := LV (xs ++ [x]) ++ replicate (n - S (v_sz v)) Raw]> h1) rg).
    { intros v1 h1 Hd ->. apply wp_bind. eapply wp_free_old; [exact Hd|assumption|assumption|]. eapply wp_set; [eassumption|]. apply HQ.
      - split; [cbn [v_sz]; rewrite app_length; cbn [length]; lia|]. split; [exact Hm|]. cbn [v_blk v_cap]. split; [assumption|]. eexists. split; [reflexivity|]. split; [apply raw_avail|]. rewrite app_length, replicate_length. cbn [length]. lia.
      - lia.
      - reflexivity. }
    assert (CLEAN : forall ys h1 cs, length ys = length xs -> (strong tr = true -> ys = xs) -> St v ys hf h1 -> length cs = n -> Forall avail cs ->
        wp (deallocate tr nb n) (fun _ => E) nothrow (<[nb := cs]> h1) rg).
    { intros ys h1 cs Ly Hst HS1 Lc Hcs. assert (Hn3 : h1 !! nb = None). { destruct HS1 as (_ & _ & HS1). destruct (v_blk v) as [b|]; [|destruct HS1 as (-> & _); assumption]. destruct HS1 as (_ & R & -> & _). rewrite lookup_insert_ne by congruence. assumption. }
      eapply wp_deallocate; [apply lookup_insert|assumption|apply Forall_avail_lookup; assumption|]. rewrite delete_insert by assumption. apply HE. exists ys. auto. }
    assert (RB : replicate n (@Raw V) = replicate (v_sz v) Raw ++ Raw :: replicate (n - S (v_sz v)) Raw).
    { change (Raw :: replicate (n - S (v_sz v)) Raw) with (replicate (S (n - S (v_sz v))) (@Raw V)). rewrite <- replicate_add. f_equal. lia. }
    apply wp_bind. apply wp_guarded. destruct (use_memcpy tr) eqn:Eu.
    + (* memcpy, then construct *)
      assert (Et : t_triv tr = true) by (apply andb_prop in Eu as [? _]; assumption).
      assert (NT : (if mv then move_throws tr else copy_throws tr) = true -> False) by (unfold move_throws, copy_throws; rewrite Et; destruct mv; discriminate).
      assert (CON : forall h1, St v xs hf h1 -> wp (construct tr moved (nb, v_sz v) a mv) (fun _ h' rg' => wp ((match v_blk v with Some b => deallocate tr b (v_sz v) | None => skip end) ;;; set r (mkV (Some nb) (S (v_sz v)) n)) Q E h' rg')
          (fun h' rg' => wp (deallocate tr nb n) (fun _ => E) nothrow h' rg') (<[nb := LV xs ++ Raw :: replicate (n - S (v_sz v)) Raw]> h1) rg).
      { intros h1 HS1. assert (Hn3 : h1 !! nb = None). { destruct HS1 as (_ & _ & HS1). destruct (v_blk v) as [b|]; [|destruct HS1 as (-> & _); assumption]. destruct HS1 as (_ & R & -> & _). rewrite lookup_insert_ne by congruence. assumption. }
        eapply (sg_construct tr moved); [rewrite fmap_length; congruence|right; reflexivity|eapply argok_new; eassumption|assumption| |intros Hx; destruct (NT Hx)].
        pose proof (FREE (mkV (Some nb) (S (v_sz v)) n) h1) as HF. rewrite fmap_app, <- app_assoc in HF. apply HF; [|reflexivity].
        unfold dead. destruct HS1 as (Hl1 & _ & HS1). destruct (v_blk v) as [b|]; [|destruct HS1 as (-> & _); reflexivity]. destruct HS1 as (Hb & R & -> & HR & HRl). split; [assumption|]. eexists. split; [reflexivity|]. split; [apply Forall_true; intros; left; assumption|]. rewrite app_length, fmap_length. lia. }
      apply wp_bind. destruct (v_blk v) as [b|] eqn:Ev.
      * destruct HS as (Hl & Hm' & HS). rewrite Ev in HS. destruct HS as (Hb & R & -> & HR & HRl). rewrite RB.
        apply (sg_relocate_move tr moved nb b 0 0 (v_sz v) [] (replicate (v_sz v) Raw) (Raw :: replicate (n - S (v_sz v)) Raw) [] xs R); try reflexivity; try congruence; [apply replicate_length|apply raw_avail|].
        intros ys Ly Hys. rewrite (Hys Eu). cbn [app]. apply CON. split; [assumption|]. split; [assumption|]. rewrite Ev. split; [assumption|]. exists R. auto.
      * apply wp_skip. assert (xs = []) as -> by (destruct HS as (Hl & _ & HS); rewrite Ev in HS; destruct HS as (_ & ? & _); destruct xs; [reflexivity|cbn [length] in *; lia]).
        cbn [length] in Hsz. rewrite Hsz in RB. cbn [replicate app] in RB. rewrite RB. rewrite Hsz in CON. rewrite Hsz. apply CON. assumption.
    + apply wp_bind. rewrite RB.
      eapply (sg_construct tr moved); [apply replicate_length|right; reflexivity| |assumption| |].
      * eapply argok_new; eassumption.
      * apply wp_guarded. eapply wp_relocate; [eassumption|exact HS|assumption|apply replicate_length|apply raw_avail| |].
        -- intros h1 Hd. pose proof (FREE (mkV (Some nb) (S (v_sz v)) n) h1 Hd eq_refl) as HF. rewrite fmap_app, <- app_assoc in HF. exact HF.
        -- intros ys h1 Ly Hst HS1. apply (sg_destroy tr); [apply replicate_length|]. intros c Hc1. apply (CLEAN ys); try assumption; [rewrite app_length; cbn [length]; rewrite !replicate_length; lia|].
           apply Forall_app. split; [apply raw_avail|]. constructor; [assumption|apply raw_avail].
      * intros _. rewrite <- RB. apply (CLEAN xs); auto; [apply replicate_length|apply raw_avail].
  - apply wp_bind. assert (v_sz v < v_cap v) by lia. destruct HS as (Hl & Hm & HS0). assert (HS : St v xs hf h) by (split; [assumption|]; split; assumption). unfold at_. destruct (v_blk v) as [b|] eqn:Ev; [|lia]. cbn [default].
    destruct HS0 as (Hb & R & -> & HR & HRl). destruct R as [|c R]; [cbn [length] in HRl; lia|]. inversion HR as [|? ? Hc1 HR1]; subst.
    eapply (sg_construct tr moved); [rewrite fmap_length; congruence|exact Hc1|eapply argok_aval; eassumption|assumption| |].
    + eapply wp_set; [eassumption|]. apply HQ; [|auto|lia]. split; [cbn [v_sz]; rewrite app_length; cbn [length]; lia|]. split; [exact Hm|]. cbn [v_blk v_cap]. split; [assumption|]. exists R. rewrite fmap_app, <- app_assoc. split; [reflexivity|]. split; [assumption|]. rewrite app_length. cbn [length] in *. lia.
    + intros _. apply HE, sos_refl. assumption.
Qed.
End Ops.
