(** What each operation of one vector does: resizing, assignment, copies, erasure. *)
From stdpp Require Import gmap list infinite fin_map_dom.
From Coq Require Import NArith Lia ZifyBool ZifyNat ZifyN.
From Verif.Common Require Import Word.
From Verif.Vec Require Import Model Wp Ranges Segs Ops1.
Local Open Scope nat_scope.

Section Ops.
Context {V : Type} (tr : traits) (moved : V -> V).
Notation heap := (gmap nat (list (@cell V))).
Notation M := (@M V).
Implicit Types (mv : bool) (xs ys zs : list V) (hf h : heap) (rg : list vec) (E : heap -> list vec -> Prop) (A B C R : list (@cell V)) (a : @arg V) (v : vec).
Notation post A := (A -> heap -> list vec -> Prop).
Notation "x <- m ;; k" := (bind m (fun x => k)) (at level 100, m at next level, right associativity).
Notation "m ;;; k" := (bind m (fun _ => k)) (at level 100, right associativity).
Notation wft := (wft tr).
Notation fits := (fits tr).
Notation avail := (avail (V := V) tr).
Notation "'LV' xs" := (@Live V <$> (xs : list V)) (at level 30).
Notation St := (St (V := V) tr).
Notation argok := (argok (V := V)).

Definition resz v n : vec := mkV (v_blk v) n (v_cap v).
Lemma St_blk v xs hf h : St v xs hf h -> 0 < v_cap v -> exists b R, v_blk v = Some b /\ hf !! b = None /\ h = <[b := LV xs ++ R]> hf /\ Forall avail R /\ length xs + length R = v_cap v.
Proof. intros (_ & _ & H) Hc. destruct (v_blk v) as [b|]; [|lia]. destruct H as (Hb & R & H). exists b, R. auto. Qed.
Lemma St_mk v b xs R hf : v_blk v = Some b -> length xs = v_sz v -> (N.of_nat (v_cap v) * t_size tr <= t_max tr)%N -> hf !! b = None -> Forall avail R -> length xs + length R = v_cap v -> St v xs hf (<[b := LV xs ++ R]> hf).
Proof. intros Hb H1 H2 H3 H4 H5. split; [assumption|]. split; [assumption|]. rewrite Hb. split; [assumption|]. exists R. auto. Qed.
Lemma St_same v ys xs hf h : St v xs hf h -> length ys = length xs -> v_cap v = 0 -> St v ys hf h.
Proof. intros HS Hl Hc. pose proof (St_zero _ _ _ _ HS Hc) as ->. destruct ys; [exact HS|discriminate]. Qed.

Lemma wp_destroy_range_e r v xs i (Q : post unit) E hf h rg : rg !! r = Some v -> St v xs hf h -> i <= length xs ->
  (forall h', St (resz v i) (take i xs) hf h' -> Q tt h' (<[r := resz v i]> rg)) -> wp (destroy_range_e tr r i) Q E h rg.
Proof.
  intros Hr HS Hi HQ. unfold destroy_range_e. apply wp_bind. eapply wp_get; [eassumption|]. apply wp_bind. pose proof (St_sz _ _ _ _ HS) as Hsz.
  destruct (Nat.eq_dec (v_cap v) 0) as [Hc|Hc].
  - assert (xs = []) as -> by (apply (St_zero _ _ _ _ HS Hc)). cbn [length] in *. replace (v_sz v - i) with 0 by lia. apply wp_skip. eapply wp_set; [eassumption|]. fold (resz v i). apply HQ.
    rewrite take_nil. destruct HS as (H1 & H2 & H3). split; [cbn [length resz v_sz]; lia|]. split; [exact H2|]. cbn [resz v_blk v_cap v_sz]. destruct (v_blk v); [exact H3|]. destruct H3 as (H3 & _ & H4). repeat split; try assumption. lia.
  - pose proof (St_cap _ _ _ _ HS) as Hm. destruct (St_blk _ _ _ _ HS) as (b & R & Hb & Hf & -> & HR & Hl); [lia|]. rewrite Hb. cbn [default]. rewrite <- (take_drop i xs) at 1. rewrite fmap_app, <- app_assoc.
    apply (sg_destroy_range tr b i (v_sz v - i) (LV take i xs) (drop i xs) R); [rewrite fmap_length, take_length; lia|rewrite drop_length; lia|]. intros B LB HB.
    eapply wp_set; [eassumption|]. rewrite <- Hb. fold (resz v i). apply HQ. apply St_mk; cbn [resz v_blk v_cap v_sz]; try assumption; [rewrite take_length; lia|apply Forall_app; auto|]. rewrite take_length, app_length. lia.
Qed.
Lemma wp_clear r v xs (Q : post unit) E hf h rg : rg !! r = Some v -> St v xs hf h ->
  (forall h', St (resz v 0) [] hf h' -> Q tt h' (<[r := resz v 0]> rg)) -> wp (clear tr r) Q E h rg.
Proof. intros Hr HS HQ. unfold clear. eapply wp_destroy_range_e; [eassumption|eassumption|lia|]. rewrite take_0. assumption. Qed.
Lemma wp_pop_back r v xs x (Q : post unit) E hf h rg : rg !! r = Some v -> St v (xs ++ [x]) hf h ->
  (forall h', St (resz v (length xs)) xs hf h' -> Q tt h' (<[r := resz v (length xs)]> rg)) -> wp (pop_back tr r) Q E h rg.
Proof.
  intros Hr HS HQ. unfold pop_back. apply wp_bind. eapply wp_get; [eassumption|]. pose proof (St_sz _ _ _ _ HS) as Hsz. rewrite app_length in Hsz. cbn [length] in Hsz.
  destruct (Nat.eqb_spec (v_sz v) 0); [lia|]. apply wp_bind. eapply wp_set; [eassumption|]. replace (v_sz v - 1) with (length xs) by lia. fold (resz v (length xs)).
  pose proof (St_cap _ _ _ _ HS) as Hm. pose proof (St_le _ _ _ _ HS) as Hle. destruct (St_blk _ _ _ _ HS) as (b & R & Hb & Hf & -> & HR & Hl); [lia|]. unfold at_. rewrite Hb. cbn [default]. rewrite fmap_app, <- app_assoc. cbn [app fmap list_fmap].
  apply (sg_destroy tr); [apply fmap_length|]. intros c Hc. apply HQ. apply St_mk; cbn [resz v_blk v_cap v_sz]; try assumption; [reflexivity|constructor; assumption|]. rewrite app_length in Hl. cbn [length] in *. lia.
Qed.

(** construction at the end *)
Lemma wp_fill_e r v xs n a x (Q : post unit) E hf h rg : rg !! r = Some v -> St v xs hf h -> v_sz v + n <= v_cap v -> argok hf v xs a x ->
  (forall h', St (resz v (v_sz v + n)) (xs ++ replicate n x) hf h' -> Q tt h' (<[r := resz v (v_sz v + n)]> rg)) ->
  E h rg -> wp (fill_e tr moved r n a) Q E h rg.
Proof.
  intros Hr HS Hn Ha HQ HE. unfold fill_e. apply wp_bind. eapply wp_get; [eassumption|]. apply wp_bind. pose proof (St_sz _ _ _ _ HS) as Hsz. pose proof (argok_aval _ _ _ _ _ _ HS Ha) as Hav.
  destruct (Nat.eq_dec n 0) as [->|Hn0].
  - apply wp_skip. eapply wp_set; [eassumption|]. fold (resz v (v_sz v + 0)). apply HQ. cbn [replicate]. rewrite app_nil_r, Nat.add_0_r. unfold resz. destruct v; exact HS.
  - pose proof (St_cap _ _ _ _ HS) as Hm. assert (HE' := HE). destruct (St_blk _ _ _ _ HS) as (b & R & Hb & Hf & Eh & HR & Hl); [lia|]. rewrite Hb. cbn [default]. rewrite Eh in *.
    rewrite <- (take_drop n R) in *. apply Forall_app in HR as [HR1 HR2].
    assert (LR : length (take n R) = n) by (rewrite take_length; rewrite take_drop in Hl; lia).
    apply (sg_ufill tr moved b (v_sz v) n (LV xs) (take n R) (drop n R) a x); [rewrite fmap_length; congruence|assumption|assumption|exact Hav| | |intros _; exact HE].
    + intros l ->. cbn [aval] in Hav. cbn [Ops1.argok] in Ha. apply Bool.not_true_iff_false. rewrite rng_true. intros (E1 & E2 & E3). destruct Ha as [Ha|[_ Ha]].
      * unfold cellat in Ha. rewrite E1, Hf in Ha. discriminate.
      * apply lookup_lt_Some in Ha. lia.
    + eapply wp_set; [eassumption|]. rewrite <- Hb. fold (resz v (v_sz v + n)). apply HQ. rewrite app_assoc, <- fmap_app. apply St_mk; cbn [resz v_blk v_cap v_sz]; try assumption; rewrite app_length, replicate_length; [lia|]. rewrite app_length in Hl. lia.
Qed.
Lemma wp_fill_default_e dflt r v xs n (Q : post unit) E hf h rg : rg !! r = Some v -> St v xs hf h -> v_sz v + n <= v_cap v ->
  (forall h', St (resz v (v_sz v + n)) (xs ++ replicate n dflt) hf h' -> Q tt h' (<[r := resz v (v_sz v + n)]> rg)) ->
  E h rg -> wp (fill_default_e tr dflt r n) Q E h rg.
Proof.
  intros Hr HS Hn HQ HE. unfold fill_default_e. apply wp_bind. eapply wp_get; [eassumption|]. apply wp_bind. pose proof (St_sz _ _ _ _ HS) as Hsz.
  destruct (Nat.eq_dec n 0) as [->|Hn0].
  - apply wp_skip. eapply wp_set; [eassumption|]. fold (resz v (v_sz v + 0)). apply HQ. cbn [replicate]. rewrite app_nil_r, Nat.add_0_r. unfold resz. destruct v; exact HS.
  - pose proof (St_cap _ _ _ _ HS) as Hm. destruct (St_blk _ _ _ _ HS) as (b & R & Hb & Hf & Eh & HR & Hl); [lia|]. rewrite Hb. cbn [default]. rewrite Eh in *.
    rewrite <- (take_drop n R) in *. apply Forall_app in HR as [HR1 HR2].
    assert (LR : length (take n R) = n) by (rewrite take_length; rewrite take_drop in Hl; lia).
    apply (sg_ufill_default tr dflt b (v_sz v) n (LV xs) (take n R) (drop n R)); [rewrite fmap_length; congruence|assumption|assumption| |intros _; exact HE].
    eapply wp_set; [eassumption|]. rewrite <- Hb. fold (resz v (v_sz v + n)). apply HQ. rewrite app_assoc, <- fmap_app. apply St_mk; cbn [resz v_blk v_cap v_sz]; try assumption; rewrite app_length, replicate_length; [lia|]. rewrite app_length in Hl. lia.
Qed.
Lemma wp_copy_list_e r v xs zs mv (Q : post unit) E hf h rg : rg !! r = Some v -> St v xs hf h -> v_sz v + length zs <= v_cap v ->
  (forall h', St (resz v (v_sz v + length zs)) (xs ++ zs) hf h' -> Q tt h' (<[r := resz v (v_sz v + length zs)]> rg)) ->
  E h rg -> wp (copy_list_e tr moved r zs mv) Q E h rg.
Proof.
  intros Hr HS Hn HQ HE. unfold copy_list_e. apply wp_bind. eapply wp_get; [eassumption|]. apply wp_bind. pose proof (St_sz _ _ _ _ HS) as Hsz.
  destruct (Nat.eq_dec (length zs) 0) as [E0|Hn0].
  - assert (zs = []) as -> by (destruct zs; [reflexivity|discriminate]). apply wp_skip. eapply wp_set; [eassumption|]. cbn [length] in *. fold (resz v (v_sz v + 0)). apply HQ. rewrite app_nil_r, Nat.add_0_r. unfold resz. destruct v; exact HS.
  - pose proof (St_cap _ _ _ _ HS) as Hm. destruct (St_blk _ _ _ _ HS) as (b & R & Hb & Hf & Eh & HR & Hl); [lia|]. rewrite Hb. cbn [default]. rewrite Eh in *.
    rewrite <- (take_drop (length zs) R) in *. apply Forall_app in HR as [HR1 HR2].
    assert (LR : length (take (length zs) R) = length zs) by (rewrite take_length; rewrite take_drop in Hl; lia).
    apply (sg_ucopy_list tr moved b (v_sz v) zs mv (LV xs) (take (length zs) R) (drop (length zs) R)); [rewrite fmap_length; congruence|assumption|assumption| |intros _; exact HE].
    eapply wp_set; [eassumption|]. rewrite <- Hb. fold (resz v (v_sz v + length zs)). apply HQ. rewrite app_assoc, <- fmap_app. apply St_mk; cbn [resz v_blk v_cap v_sz]; try assumption; rewrite app_length; [lia|]. rewrite app_length in Hl. lia.
Qed.
(** the elements [zs] of a block of another vector *)
Lemma wp_copy_e r v xs s j A' zs C' (Q : post unit) E hf h rg : rg !! r = Some v -> St v xs hf h -> v_sz v + length zs <= v_cap v -> (0 < length zs -> hf !! s = Some (A' ++ LV zs ++ C') /\ length A' = j) ->
  (forall h', St (resz v (v_sz v + length zs)) (xs ++ zs) hf h' -> Q tt h' (<[r := resz v (v_sz v + length zs)]> rg)) ->
  E h rg -> wp (copy_e tr moved r s j (length zs)) Q E h rg.
Proof.
  intros Hr HS Hn Hs HQ HE. unfold copy_e. apply wp_bind. eapply wp_get; [eassumption|]. apply wp_bind. pose proof (St_sz _ _ _ _ HS) as Hsz.
  destruct (Nat.eq_dec (length zs) 0) as [E0|Hn0].
  - assert (zs = []) as -> by (destruct zs; [reflexivity|discriminate]). cbn [length] in *. unfold ucopy. assert (SK : wp (@skip V) (fun _ h' rg' => wp (set r (mkV (v_blk v) (v_sz v + 0) (v_cap v))) Q E h' rg') E h rg).
    { apply wp_skip. eapply wp_set; [eassumption|]. fold (resz v (v_sz v + 0)). apply HQ. rewrite app_nil_r, Nat.add_0_r. unfold resz. destruct v; exact HS. }
    destruct (t_triv tr && t_std tr); exact SK.
  - destruct Hs as [Hs Lj]; [lia|]. pose proof (St_cap _ _ _ _ HS) as Hm. destruct (St_blk _ _ _ _ HS) as (b & R & Hb & Hf & Eh & HR & Hl); [lia|]. rewrite Hb. cbn [default]. rewrite Eh in *.
    assert (Hne : b <> s) by congruence. rewrite <- (insert_id hf s _ Hs) in *.
    rewrite <- (take_drop (length zs) R) in *. apply Forall_app in HR as [HR1 HR2].
    assert (LR : length (take (length zs) R) = length zs) by (rewrite take_length; rewrite take_drop in Hl; lia).
    apply (sg_ucopy_from tr moved b s (v_sz v) j (length zs) (LV xs) (take (length zs) R) (drop (length zs) R) A' zs C'); [assumption|rewrite fmap_length; congruence|assumption|assumption|assumption|reflexivity| |intros _; exact HE].
    eapply wp_set; [eassumption|]. rewrite <- Hb. fold (resz v (v_sz v + length zs)). apply HQ. rewrite (app_assoc (LV xs)), <- fmap_app. apply St_mk; cbn [resz v_blk v_cap v_sz]; try assumption; rewrite app_length; [lia|]. rewrite app_length in Hl. lia.
Qed.

(** resize *)
Lemma lkp_ins rg r v v' : rg !! r = Some v -> <[r := v']> rg !! r = Some v'.
Proof. intros H. apply list_lookup_insert. apply lookup_lt_Some in H. assumption. Qed.
Definition resized (d : V) n xs : list V := take n xs ++ replicate (n - length xs) d.
Lemma wp_resize dflt r v xs n (Q : post unit) E hf h rg : wft -> fits n -> rg !! r = Some v -> St v xs hf h ->
  (forall v' h', St v' (resized dflt n xs) hf h' -> (n <= v_cap v -> v_blk v' = v_blk v /\ v_cap v' = v_cap v) -> Q tt h' (<[r := v']> rg)) ->
  (forall v' ys h', St v' ys hf h' -> length ys = length xs -> (strong tr = true -> ys = xs) -> E h' (<[r := v']> rg)) -> wp (resize tr moved dflt r n) Q E h rg.
Proof.
  intros Hw Hf Hr HS HQ HE. unfold resize. apply wp_bind. eapply wp_get; [eassumption|]. pose proof (St_sz _ _ _ _ HS) as Hsz. destruct (Nat.leb_spec n (v_sz v)) as [Hn|Hn].
  - eapply wp_destroy_range_e; [eassumption|eassumption|lia|]. intros h' HS'. apply HQ; [|auto]. unfold resized. replace (n - length xs) with 0 by lia. cbn [replicate]. rewrite app_nil_r. assumption.
  - apply wp_bind. eapply wp_reserve; [assumption|assumption|eassumption|eassumption| |].
    + intros v' h' HS' Hc' Hst. eapply wp_fill_default_e; [eapply lkp_ins; eassumption|eassumption| | |].
      * rewrite (St_sz _ _ _ _ HS'). lia.
      * intros h2 HS2. rewrite list_insert_insert. apply HQ; [unfold resized; rewrite take_ge by lia; rewrite Hsz in *; assumption|]. intros Hn2. rewrite (Hst Hn2). auto.
      * apply (HE v' xs); auto.
    + intros h' _ (ys & Ly & Hy & HSy). rewrite <- (list_insert_id rg r v Hr). apply (HE v ys); assumption.
Qed.
Lemma wp_by_vt v xs a x (Q : post (@arg V)) E hf h rg : St v xs hf h -> argok hf v xs a x -> (forall a', argok hf v xs a' x -> (t_byval tr = true -> a' = Val x) -> (t_byval tr = false -> a' = a) -> Q a' h rg) -> wp (by_vt tr moved a) Q E h rg.
Proof.
  intros HS Ha HQ. unfold by_vt. destruct (t_byval tr); [|apply wp_ret, HQ; [assumption|discriminate|reflexivity]]. apply wp_bind.
  eapply wp_take_arg; [eapply argok_aval; eassumption|]. intros h' Hh. apply wp_ret.
  assert (h' = h) as ->. { eapply hov_none; [exact Hh|]. intros l c _. left. unfold asrc. destruct a; reflexivity. }
  apply HQ; [reflexivity|reflexivity|discriminate].
Qed.
Lemma wp_local_copy v xs a x mv (Q : post (@arg V)) E hf h rg : St v xs hf h -> argok hf v xs a x -> (mv = true -> exists y, a = Val y) -> Q (Val x) h rg -> E h rg -> wp (local_copy tr moved a mv) Q E h rg.
Proof.
  intros HS Ha Hmv HQ HE. unfold local_copy. apply wp_bind. apply wp_may_throw; [|intros _; assumption]. apply wp_bind.
  eapply wp_take_arg; [eapply argok_aval; eassumption|]. intros h' Hh. apply wp_ret.
  assert (h' = h) as ->. { eapply hov_none; [exact Hh|]. intros l c _. left. unfold asrc. destruct a; [reflexivity|]. destruct mv; [destruct (Hmv eq_refl); discriminate|reflexivity]. }
  assumption.
Qed.
Lemma is_internal_own hf v xs a x : argok hf v xs a x -> v_sz v = length xs -> is_internal v a = false -> forall v' xs', argok hf v' xs' a x.
Proof.
  intros Ha Hsz Hi v' xs'. destruct a as [y|l]; [exact Ha|]. cbn [Ops1.argok] in *. destruct Ha as [Ha|[Hb Hx]]; [left; assumption|]. exfalso. unfold is_internal in Hi. rewrite Hb, Nat.eqb_refl in Hi. cbn [andb] in Hi.
  apply lookup_lt_Some in Hx. apply Nat.ltb_ge in Hi. lia.
Qed.
Lemma wp_resize_with r v xs n a x (Q : post unit) E hf h rg : wft -> fits n -> rg !! r = Some v -> St v xs hf h -> argok hf v xs a x ->
  (forall v' h', St v' (resized x n xs) hf h' -> (n <= v_cap v -> v_blk v' = v_blk v /\ v_cap v' = v_cap v) -> Q tt h' (<[r := v']> rg)) ->
  (forall v' ys h', St v' ys hf h' -> length ys = length xs -> (strong tr = true -> ys = xs) -> E h' (<[r := v']> rg)) -> wp (resize_with tr moved r n a) Q E h rg.
Proof.
  intros Hw Hf Hr HS Ha HQ HE. unfold resize_with. apply wp_bind. eapply wp_by_vt; [eassumption|eassumption|]. intros a' Ha' Hb1 Hb2. apply wp_bind. eapply wp_get; [eassumption|]. pose proof (St_sz _ _ _ _ HS) as Hsz. destruct (Nat.leb_spec n (v_sz v)) as [Hn|Hn].
  - eapply wp_destroy_range_e; [eassumption|eassumption|lia|]. intros h' HS'. apply HQ; [|auto]. unfold resized. replace (n - length xs) with 0 by lia. cbn [replicate]. rewrite app_nil_r. assumption.
  - assert (GO : forall a2, (forall v', (v_cap v < n \/ v' = v) -> argok hf v' xs a2 x) -> wp (reserve tr moved r n ;;; fill_e tr moved r (n - v_sz v) a2) Q E h rg).
    { intros a2 Ha2. apply wp_bind. eapply wp_reserve; [assumption|assumption|eassumption|eassumption| |].
      + intros v' h' HS' Hc' Hst. eapply wp_fill_e; [eapply lkp_ins; eassumption|eassumption| | | |].
        * rewrite (St_sz _ _ _ _ HS'). lia.
        * apply Ha2. destruct (Nat.lt_ge_cases (v_cap v) n); [left; assumption|right; auto].
        * intros h2 HS2. rewrite list_insert_insert. apply HQ; [unfold resized; rewrite take_ge by lia; rewrite Hsz in *; assumption|]. intros Hn2. rewrite (Hst Hn2). auto.
        * apply (HE v' xs); auto.
      + intros h' _ (ys & Ly & Hy & HSy). rewrite <- (list_insert_id rg r v Hr). apply (HE v ys); assumption. }
    destruct (negb (t_byval tr) && is_internal v a' && (v_cap v <? n)) eqn:Ei.
    + apply wp_bind. eapply wp_local_copy; [eassumption|exact Ha'|discriminate| |rewrite <- (list_insert_id rg r v Hr); apply (HE v xs); auto]. apply GO. reflexivity.
    + apply GO. intros v' [Hlt| ->]; [|assumption]. destruct (t_byval tr); [rewrite Hb1 by reflexivity; reflexivity|]. cbn [negb andb] in Ei. rewrite (proj2 (Nat.ltb_lt _ _) Hlt), andb_true_r in Ei. eapply is_internal_own; eassumption.
Qed.

(** construction; [v0] is the dead storage of the new vector *)
Lemma wp_ctor_default dflt r v0 n (Q : post unit) E h rg : wft -> fits n -> rg !! r = Some v0 ->
  (forall v' h', St v' (replicate n dflt) h h' -> v_cap v' = n -> Q tt h' (<[r := v']> rg)) ->
  E h rg -> E h (<[r := mkV None 0 0]> rg) -> wp (ctor_default tr dflt r n) Q E h rg.
Proof.
  intros Hw Hf Hr HQ HE HE'. unfold ctor_default. apply wp_bind. eapply wp_impl_init; [assumption|assumption|eassumption| |assumption]. intros v' h' HS Hc. apply wp_guarded.
  eapply wp_fill_default_e; [eapply lkp_ins; eassumption|eassumption|rewrite (St_sz _ _ _ _ HS); cbn [length]; lia| |].
  - intros h2 HS2. rewrite list_insert_insert. apply HQ; assumption.
  - eapply wp_impl_reset0; [eapply lkp_ins; eassumption|eassumption|]. rewrite list_insert_insert. assumption.
Qed.
Lemma wp_ctor_fill r v0 n a x (Q : post unit) E h rg : wft -> fits n -> rg !! r = Some v0 -> aval h a x ->
  (forall v' h', St v' (replicate n x) h h' -> v_cap v' = n -> Q tt h' (<[r := v']> rg)) ->
  E h rg -> E h (<[r := mkV None 0 0]> rg) -> wp (ctor_fill tr moved r n a) Q E h rg.
Proof.
  intros Hw Hf Hr Ha HQ HE HE'. unfold ctor_fill. apply wp_bind. eapply wp_impl_init; [assumption|assumption|eassumption| |assumption]. intros v' h' HS Hc. apply wp_guarded.
  eapply wp_fill_e; [eapply lkp_ins; eassumption|eassumption|rewrite (St_sz _ _ _ _ HS); cbn [length]; lia| | |].
  - destruct a as [y|l]; [exact Ha|left; exact Ha].
  - intros h2 HS2. rewrite list_insert_insert. apply HQ; assumption.
  - eapply wp_impl_reset0; [eapply lkp_ins; eassumption|eassumption|]. rewrite list_insert_insert. assumption.
Qed.
Lemma wp_ctor_list r v0 zs (Q : post unit) E h rg : wft -> fits (length zs) -> rg !! r = Some v0 ->
  (forall v' h', St v' zs h h' -> v_cap v' = length zs -> Q tt h' (<[r := v']> rg)) ->
  E h rg -> E h (<[r := mkV None 0 0]> rg) -> wp (ctor_list tr moved r zs) Q E h rg.
Proof.
  intros Hw Hf Hr HQ HE HE'. unfold ctor_list. apply wp_bind. eapply wp_impl_init; [assumption|assumption|eassumption| |assumption]. intros v' h' HS Hc. apply wp_guarded.
  eapply wp_copy_list_e; [eapply lkp_ins; eassumption|eassumption|rewrite (St_sz _ _ _ _ HS); cbn [length]; lia| |].
  - intros h2 HS2. rewrite list_insert_insert. apply HQ; assumption.
  - eapply wp_impl_reset0; [eapply lkp_ins; eassumption|eassumption|]. rewrite list_insert_insert. assumption.
Qed.
(** [src_ok h o zs]: vector [o] of [h] holds [zs] *)
Definition src_ok h (o : vec) zs : Prop := v_sz o = length zs /\ (N.of_nat (v_sz o) * t_size tr <= t_max tr)%N /\ (0 < length zs -> exists b R, v_blk o = Some b /\ h !! b = Some (LV zs ++ R)).
Lemma src_fits h o zs : wft -> src_ok h o zs -> fits (length zs).
Proof. intros [_ Hw] (H1 & H2 & _). unfold Ops1.fits. rewrite <- H1. lia. Qed.
Lemma wp_ctor_copy r q o v0 zs (Q : post unit) E h rg : wft -> rg !! r = Some v0 -> rg !! q = Some o -> src_ok h o zs ->
  (forall v' h', St v' zs h h' -> v_cap v' = length zs -> Q tt h' (<[r := v']> rg)) ->
  E h rg -> E h (<[r := mkV None 0 0]> rg) -> wp (ctor_copy tr moved r q) Q E h rg.
Proof.
  intros Hw Hr Hq Ho HQ HE HE'. pose proof (src_fits _ _ _ Hw Ho) as Hf. destruct Ho as (Hz & _ & Ho). unfold ctor_copy. apply wp_bind. eapply wp_get; [eassumption|]. apply wp_bind. rewrite Hz.
  eapply wp_impl_init; [assumption|exact Hf|eassumption| |assumption]. intros v' h' HS Hc. apply wp_guarded.
  eapply (wp_copy_e r v' [] (default 0 (v_blk o)) 0 [] zs (match v_blk o with Some b => match h !! b with Some cs => drop (length zs) cs | None => [] end | None => [] end));
    [eapply lkp_ins; eassumption|eassumption|rewrite (St_sz _ _ _ _ HS); cbn [length]; lia| | |].
  - intros Hp. destruct (Ho Hp) as (b & R & -> & Hb). cbn [default]. change (id b) with b. rewrite Hb. split; [|reflexivity]. cbn [app]. rewrite drop_app_alt by (rewrite fmap_length; reflexivity). reflexivity.
  - intros h2 HS2. rewrite list_insert_insert. apply HQ; assumption.
  - eapply wp_impl_reset0; [eapply lkp_ins; eassumption|eassumption|]. rewrite list_insert_insert. assumption.
Qed.
End Ops.
