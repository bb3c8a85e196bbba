(** What each operation of one vector does: insertion. *)
From stdpp Require Import gmap list infinite fin_map_dom.
From Coq Require Import NArith Lia ZifyBool ZifyNat ZifyN.
From Verif.Common Require Import Word.
From Verif.Vec Require Import Model Wp Ranges Segs Ops1 Ops2 Ops3 Ops4.
Local Open Scope nat_scope.

Section Ops.
Context {V : Type} (tr : traits) (moved : V -> V).
Notation heap := (gmap nat (list (@cell V))).
Notation M := (@M V).
Implicit Types (mv : bool) (xs ys zs : list V) (hf h : heap) (rg : list vec) (E : heap -> list vec -> Prop) (A B C R : list (@cell V)) (a : @arg V) (v : vec).
Notation post A := (A -> heap -> list vec -> Prop).
Notation "x <- m ;; k" := (bind m (fun x => k)) (at level 100, m at next level, right associativity).
Notation "m ;;; k" := (bind m (fun _ => k)) (at level 100, right associativity).
Notation wft := (wft tr).
Notation fits := (fits tr).
Notation avail := (avail (V := V) tr).
Notation "'LV' xs" := (@Live V <$> (xs : list V)) (at level 30).
Notation St := (St (V := V) tr).
Notation argok := (argok (V := V)).

Notation resz := Ops2.resz.
Notation dead := (dead (V := V) tr).

Lemma wp_wrap_frame r v xs zs nb idx A B2 C (Q : post unit) E hf h0 rg : rg !! r = Some v -> St v xs hf h0 -> h0 !! nb = None -> idx <= length xs -> length A = idx -> length B2 = length xs - idx -> Forall avail A -> Forall avail B2 ->
  (forall h1, dead v hf h1 -> Q tt (<[nb := LV (take idx xs ++ zs ++ drop idx xs) ++ C]> h1) rg) ->
  (forall A' ys h1, length A' = idx -> Forall avail A' -> length ys = length xs -> St v ys hf h1 -> E (<[nb := A' ++ LV zs ++ B2 ++ C]> h1) rg) ->
  wp (wrap_frame tr moved r nb idx (length zs)) Q E (<[nb := A ++ LV zs ++ B2 ++ C]> h0) rg.
Proof.
  intros Hr HS Hnb Hidx LA LB HA HB HQ HE. destruct (St_fresh _ _ _ _ _ HS Hnb) as [Hn1 Hn2]. unfold wrap_frame. apply wp_bind. eapply wp_get; [eassumption|]. destruct HS as (Hl & Hm & HS).
  unfold Ops1.dead in HQ. destruct (v_blk v) as [b|] eqn:Ev.
  - destruct HS as (Hb & R & -> & HR & Hc). assert (nb <> b) by congruence. apply wp_bind.
    assert (SPL : forall l, LV l ++ R = [] ++ LV take idx l ++ (LV drop idx l ++ R)) by (intros l; cbn [app]; rewrite app_assoc, <- fmap_app, take_drop; reflexivity).
    assert (MKS : forall ys1 ys2, length ys1 = idx -> length ys2 = length xs - idx -> St v (ys1 ++ ys2) hf (<[b := LV ys1 ++ LV ys2 ++ R]> hf)).
    { intros ys1 ys2 L1 L2. rewrite app_assoc, <- fmap_app. apply St_mk; try assumption; rewrite app_length; lia. }
    assert (Lt : length (take idx xs) = idx) by (rewrite take_length; lia). assert (Ld : length (drop idx xs) = length xs - idx) by (rewrite drop_length; lia).
    rewrite SPL. apply (sg_relocate_move tr moved nb b 0 0 idx [] A (LV zs ++ B2 ++ C) [] (take idx xs) (LV drop idx xs ++ R)); try assumption; try reflexivity.
    + intros ys1 L1 _. cbn [app]. apply wp_bind, wp_guarded. rewrite (app_assoc (LV take idx xs)). rewrite <- Hl.
      apply (sg_relocate_move tr moved nb b (idx + length zs) idx (length xs - idx) (LV take idx xs ++ LV zs) B2 C (LV ys1) (drop idx xs) R); try assumption; [rewrite app_length, !fmap_length; lia|rewrite fmap_length; assumption| |].
      * intros ys2 L2 _. apply wp_bind. rewrite insert_commute by congruence. apply (sg_relocate_done tr b 0 idx [] ys1 (LV ys2 ++ R)); [reflexivity|assumption|]. intros B' LB' HB'. cbn [app].
        apply (sg_relocate_done tr b idx (length xs - idx) B' ys2 R); [assumption|assumption|]. intros B'' LB'' HB''. rewrite insert_commute by congruence.
        replace ((LV take idx xs ++ LV zs) ++ LV drop idx xs ++ C) with (LV (take idx xs ++ zs ++ drop idx xs) ++ C) by (rewrite !fmap_app, <- !app_assoc; reflexivity).
        apply HQ. split; [assumption|]. eexists. split; [reflexivity|]. split; [apply Forall_app; split; [assumption|apply Forall_app; auto]|]. rewrite !app_length. lia.
      * intros ys2 L2 _ Eu En. unfold relocate_undo. rewrite Eu, En. rewrite <- !app_assoc.
        apply (sg_destroy_range tr nb 0 idx [] (take idx xs)); [reflexivity|assumption|]. intros B' LB' HB'. cbn [app]. apply (HE _ (ys1 ++ ys2)); [assumption|assumption|rewrite app_length; lia|]. apply MKS; lia.
    + intros ys1 L1 _ _ _. cbn [app]. apply (HE _ (ys1 ++ drop idx xs)); [assumption|assumption|rewrite app_length; lia|]. apply MKS; assumption.
  - destruct HS as (-> & Hz & Hc). apply wp_skip. assert (xs = []) as -> by (destruct xs; [reflexivity|cbn [length] in *; lia]). cbn [length] in *. assert (idx = 0) as -> by lia. assert (A = []) as -> by (destruct A; [reflexivity|discriminate]). assert (B2 = []) as -> by (destruct B2; [reflexivity|discriminate]).
    cbn [app]. specialize (HQ hf eq_refl). rewrite take_nil, drop_nil, app_nil_r in HQ. exact HQ.
Qed.

Lemma window_loop b P t1 w C i j m (Q : post unit) E hf rg : 0 < length w -> j = length P -> i = length P + length w -> m = length t1 ->
  (forall w', length w' = length w -> Q tt (<[b := LV P ++ LV (w' ++ t1) ++ C]> hf) rg) ->
  (forall u, length u = length t1 + length w -> E (<[b := LV P ++ LV u ++ C]> hf) rg) ->
  wp (for_down m (fun k => assign_to tr moved (b, i + k) (Ref (b, j + k)) true)) Q E (<[b := LV P ++ LV (t1 ++ w) ++ C]> hf) rg.
Proof.
  intros Hw -> -> -> HQ HE.
  eapply wp_mono; [apply (wp_for_down (length t1) _ (fun k h' rg' => rg' = rg /\ exists w', length w' = length w /\ h' = <[b := LV P ++ LV (take k t1 ++ w' ++ drop k t1) ++ C]> hf) E)| |].
  - intros k h1 rg1 Hk [-> (w' & Lw & ->)]. destruct (lookup_lt_is_Some_2 t1 k Hk) as [x Hx].
    assert (HE1 : E (<[b := LV P ++ LV (take (S k) t1 ++ w' ++ drop (S k) t1) ++ C]> hf) rg) by (apply HE; rewrite !app_length, take_length, drop_length; lia).
    assert (exists w1 z, w' = w1 ++ [z]) as (w1 & z & ->). { destruct (rev_case w') as [->|(w1 & z & ->)] || (destruct w' as [|y w'' _] using rev_ind); [cbn [length] in Lw; lia|eauto]. }
    rewrite app_length in Lw. cbn [length] in Lw. rewrite (take_S_r _ _ _ Hx) in HE1 |- *. rewrite (drop_S _ _ _ Hx).
    assert (Lk : length (take k t1) = k) by (rewrite take_length; lia).
    replace (LV P ++ LV ((take k t1 ++ [x]) ++ (w1 ++ [z]) ++ drop (S k) t1) ++ C) with ((LV P ++ LV take k t1) ++ Live x :: LV w1 ++ Live z :: LV drop (S k) t1 ++ C) in HE1 |- * by (rewrite !fmap_app; cbn [fmap list_fmap app]; rewrite <- !app_assoc; cbn [app]; rewrite <- ?app_assoc; reflexivity).
    eapply (sg_move_up tr moved); [rewrite app_length, !fmap_length; lia|rewrite fmap_length; lia| |exact HE1].
    intros y. split; [reflexivity|]. exists (y :: w1). split; [cbn [length]; lia|]. f_equal. rewrite !fmap_app, !fmap_cons. cbn [app]. rewrite <- !app_assoc. cbn [app]. rewrite <- ?app_assoc. reflexivity.
  - split; [reflexivity|]. exists w. split; [reflexivity|]. rewrite firstn_all, drop_all, app_nil_r. reflexivity.
  - intros [] h' rg' [-> (w' & Lw & ->)]. rewrite take_0, drop_0. apply HQ. assumption.
  - auto.
Qed.
Lemma wp_make_window r v xs pos n b (Q : post unit) E hf h rg : rg !! r = Some v -> St v xs hf h -> v_blk v = Some b -> pos < length xs -> 0 < n -> length xs + n <= v_cap v ->
  (forall B C, length B = n -> Forall avail B -> Forall avail C -> length C = v_cap v - length xs - n -> Q tt (<[b := LV take pos xs ++ B ++ LV drop pos xs ++ C]> hf) (<[r := resz v (length xs + n)]> rg)) ->
  (forall v' ys h', St v' ys hf h' -> E h' (<[r := v']> rg)) -> wp (make_window tr moved r pos n) Q E h rg.
Proof.
  intros Hr HS Hb Hp Hn Hcap HQ HE. unfold make_window. apply wp_bind. eapply wp_get; [eassumption|]. apply wp_bind. unfold blk. rewrite Hb. apply wp_ret.
  pose proof (St_sz _ _ _ _ HS) as Hsz. pose proof (St_cap _ _ _ _ HS) as Hm. destruct HS as (Hl & _ & HS). rewrite Hb in HS. destruct HS as (Hf & R & -> & HR & Hc). rewrite Hsz. rewrite Hsz in Hl.
  set (P := take pos xs). set (T := drop pos xs). set (tail := length xs - pos). assert (LP : length P = pos) by (unfold P; rewrite take_length; lia). assert (LT : length T = tail) by (unfold T, tail; rewrite drop_length; lia).
  assert (Hx : LV xs = LV P ++ LV T) by (unfold P, T; rewrite <- fmap_app, take_drop; reflexivity).
  assert (MKS : forall ys R', length ys = length xs -> Forall avail R' -> length R' = length R -> E (<[b := LV ys ++ R']> hf) rg).
  { intros ys R' Ly HR' LR'. rewrite <- (list_insert_id rg r v Hr). apply (HE v ys). apply St_mk; try assumption; lia. }
  assert (MKV : mkV (Some b) (length xs + n) (v_cap v) = resz v (length xs + n)) by (unfold Ops2.resz; rewrite Hb; reflexivity).
  destruct (Nat.leb_spec tail n) as [Ht|Ht].
  - (* the tail fits in the window *)
    assert (HR3 : R = take (n - tail) R ++ take tail (drop (n - tail) R) ++ drop n R).
    { replace (drop n R) with (drop tail (drop (n - tail) R)) by (rewrite drop_drop; f_equal; lia). rewrite !take_drop. reflexivity. }
    set (G := take (n - tail) R) in *. set (B := take tail (drop (n - tail) R)) in *. set (C := drop n R) in *.
    assert (LG : length G = n - tail) by (unfold G; rewrite take_length; lia). assert (LB : length B = tail) by (unfold B; rewrite take_length, drop_length; lia). assert (LC : length C = v_cap v - length xs - n) by (unfold C; rewrite drop_length; lia).
    assert (LR : length R = length G + length B + length C) by (rewrite HR3, !app_length; lia).
    rewrite HR3, Hx, <- app_assoc. rewrite HR3 in HR. apply Forall_app in HR as [HG HR]. apply Forall_app in HR as [HB HC].
    apply wp_bind. apply (sg_relocate_in tr moved b (pos + n) pos tail (LV P) T G B C); [rewrite fmap_length; assumption|assumption|lia|assumption|assumption| |].
    + intros ys Ly. apply wp_bind. apply (sg_relocate_done tr b pos tail (LV P) ys); [rewrite fmap_length; assumption|assumption|]. intros B' LB' HB'.
      eapply wp_set; [eassumption|]. rewrite MKV. rewrite (app_assoc B'). apply HQ; [rewrite app_length; lia|apply Forall_app; auto|assumption|assumption].
    + intros ys Ly. rewrite app_assoc, <- fmap_app. apply MKS; [rewrite app_length; unfold tail in *; lia|apply Forall_app; split; [assumption|apply Forall_app; auto]|rewrite !app_length; lia].
  - destruct (t_triv tr && t_std tr) eqn:Et.
    + assert (Et' : t_triv tr = true) by (apply andb_prop in Et as [? _]; assumption). apply wp_bind.
      set (S1 := take n (LV T)). set (X := drop n (LV T) ++ take n R). set (C := drop n R).
      assert (SPL : LV xs ++ R = (LV P ++ S1) ++ X ++ C). { unfold S1, X, C. rewrite Hx, <- !app_assoc. f_equal. rewrite take_drop, app_assoc, take_drop. reflexivity. }
      assert (LS1 : length S1 = n) by (unfold S1; rewrite take_length, fmap_length; lia). assert (LX : length X = tail) by (unfold X; rewrite app_length, drop_length, fmap_length, take_length; lia).
      rewrite SPL. apply (wp_memmove b (pos + n) b pos tail T); [assumption| | | |].
      * eexists. rewrite lookup_insert. split; [reflexivity|]. rewrite !app_length, fmap_length. lia.
      * eexists. rewrite lookup_insert. split; [reflexivity|]. rewrite !app_length, fmap_length. lia.
      * rewrite <- SPL, Hx, <- app_assoc. apply cell_live. rewrite fmap_length. assumption.
      * intros h' Hh. apply seg_live in Hh; [|rewrite app_length, fmap_length; lia|congruence]. subst h'. eapply wp_set; [eassumption|]. rewrite MKV. rewrite <- app_assoc. apply HQ; [assumption|apply Forall_true; intros; left; assumption|apply Forall_true; intros; left; assumption|unfold C; rewrite drop_length; lia].
    + set (t1 := take (tail - n) T). set (t2 := drop (tail - n) T). assert (L1 : length t1 = tail - n) by (unfold t1; rewrite take_length; lia). assert (L2 : length t2 = n) by (unfold t2; rewrite drop_length; lia).
      assert (HT : T = t1 ++ t2) by (unfold t1, t2; rewrite take_drop; reflexivity).
      set (B := take n R). set (C := drop n R). assert (HRs : R = B ++ C) by (unfold B, C; rewrite take_drop; reflexivity). assert (LB : length B = n) by (unfold B; rewrite take_length; lia). assert (LC : length C = v_cap v - length xs - n) by (unfold C; rewrite drop_length; lia).
      rewrite HRs in HR |- *. apply Forall_app in HR as [HB HC].
      apply wp_bind. rewrite Hx, HT, fmap_app, <- !app_assoc. rewrite (app_assoc (LV P)).
      apply (sg_ucopy_in tr moved b (length xs) (length xs - n) n (LV P ++ LV t1) t2 [] B C); [rewrite app_length, !fmap_length; unfold tail in *; lia|assumption|cbn [length]; lia|assumption|assumption| |].
      * intros w Lw. cbn [app]. apply wp_bind, wp_guarded. rewrite <- app_assoc. rewrite (app_assoc (LV t1)), <- fmap_app.
        apply (window_loop b P t1 w (LV t2 ++ C)); [lia|lia|lia|lia| |].
        -- intros w' Lw'. apply wp_bind. eapply wp_set; [eassumption|]. rewrite MKV. rewrite fmap_app, <- app_assoc.
           apply (sg_destroy_range tr b pos n (LV P) w'); [rewrite fmap_length; assumption|lia|]. intros B' LB' HB'. rewrite (app_assoc (LV t1)), <- fmap_app, <- HT. apply HQ; [lia|assumption|assumption|assumption].
        -- intros u Lu. apply wp_bind. replace (LV P ++ LV u ++ LV t2 ++ C) with (LV (P ++ take (length t1) u) ++ LV (drop (length t1) u ++ t2) ++ C).
           2: { rewrite !fmap_app, <- !app_assoc. f_equal. rewrite app_assoc, <- fmap_app, take_drop. reflexivity. }
           apply (sg_destroy_range tr b (length xs - n) (n + n)); [rewrite fmap_length, app_length, take_length; unfold tail in *; lia|rewrite app_length, drop_length; lia|]. intros B' LB' HB'.
           eapply wp_set; [eassumption|]. rewrite <- Hb. fold (resz v (length xs - n)). apply (HE _ (P ++ take (length t1) u)). apply St_mk; cbn [Ops2.resz v_blk v_sz v_cap]; try assumption; rewrite ?app_length, ?take_length; unfold tail in *; try lia. apply Forall_app; auto.
      * intros ys Ly. cbn [app]. rewrite <- app_assoc, (app_assoc (LV t1)), <- fmap_app, (app_assoc (LV P)), <- fmap_app. apply MKS; [rewrite !app_length; unfold tail in *; lia|apply Forall_app; auto|rewrite HRs, !app_length; lia].
Qed.

(** do_real_insert of [zs]; [AC h b i] says that the arguments are readable in [h] while (b, i) on is overwritten *)
Section Real.
Context (zs : list V) (con des : nat -> nat -> M unit) (AC : heap -> nat -> nat -> Prop).
Hypothesis con_ok : forall b i A B C hf (Q : post unit) E rg, length A = i -> length B = length zs -> Forall avail B -> AC (<[b := A ++ B ++ C]> hf) b i ->
  Q tt (<[b := A ++ LV zs ++ C]> hf) rg -> E (<[b := A ++ B ++ C]> hf) rg -> wp (con b i) Q E (<[b := A ++ B ++ C]> hf) rg.
Hypothesis des_ok : forall b i A C hf (Q : post unit) E rg, length A = i -> (forall B, length B = length zs -> Forall avail B -> Q tt (<[b := A ++ B ++ C]> hf) rg) -> wp (des b i) Q E (<[b := A ++ LV zs ++ C]> hf) rg.
Lemma wp_real_insert r v xs pos internal (redo : M nat) (Q : post nat) E hf h rg : wft -> rg !! r = Some v -> St v xs hf h -> pos <= length xs -> fits (length xs + length zs) ->
  (forall nb cs, h !! nb = None -> AC (<[nb := cs]> h) nb pos) ->
  (forall b, v_blk v = Some b -> pos = length xs -> AC h b pos) ->
  (forall b cs, v_blk v = Some b -> pos < length xs -> length xs + length zs <= v_cap v -> internal = false -> AC (<[b := cs]> hf) b pos) ->
  (pos < length xs -> length xs + length zs <= v_cap v -> internal = true -> wp redo Q E h rg) ->
  (forall v' h', St v' (take pos xs ++ zs ++ drop pos xs) hf h' -> (length xs + length zs <= v_cap v -> v_blk v' = v_blk v /\ v_cap v' = v_cap v) -> (v_cap v < length xs + length zs -> v_cap v' = Nat.max (push_back_cap tr (v_cap v)) (length xs + length zs)) -> Q pos h' (<[r := v']> rg)) ->
  (forall v' ys h', St v' ys hf h' -> E h' (<[r := v']> rg)) ->
  wp (real_insert tr moved r pos (length zs) internal redo con des) Q E h rg.
Proof using con_ok des_ok.
  intros Hw Hr HS Hpos Hfit HA1 HA2 HA3 Hredo HQ HE. unfold real_insert. pose proof (St_sz _ _ _ _ HS) as Hsz. pose proof (St_le _ _ _ _ HS) as Hle. pose proof (St_cap _ _ _ _ HS) as Hm.
  assert (HE0 : E h rg) by (rewrite <- (list_insert_id rg r v Hr); eapply HE; eassumption).
  destruct (Nat.eqb_spec (length zs) 0) as [E0|E0].
  { assert (zs = []) as Ez by (destruct zs; [reflexivity|discriminate]). apply wp_ret. rewrite <- (list_insert_id rg r v Hr). apply HQ; [rewrite Ez; cbn [app]; rewrite take_drop; assumption|auto|lia]. }
  apply wp_bind. eapply wp_get; [eassumption|].
  assert (Hadd : szadd (v_sz v) (length zs) = length xs + length zs).
  { unfold szadd, wadd, wmod. unfold Ops1.fits in Hfit. destruct Hw as [[Hs1 _] _]. rewrite N.mod_small by nia. lia. }
  unfold use_fresh. rewrite Hadd. destruct (push_back_cap_ok tr (v_cap v) Hw Hm) as (Hpf & Hpg & _).
  assert (Hic : insert_cap tr v (length zs) = Nat.max (push_back_cap tr (v_cap v)) (length xs + length zs)).
  { unfold insert_cap. rewrite Hadd. apply good_cap_fits; [assumption|]. destruct (Nat.max_spec (push_back_cap tr (v_cap v)) (length xs + length zs)) as [[_ ->]|[_ ->]]; assumption. }
  destruct (Nat.ltb_spec (v_cap v) (length xs + length zs)) as [Hfr|Hfr]; cbn [negb andb]; [rewrite andb_false_r; cbn [andb]|].
  - (* a new block *)
    destruct (Nat.ltb_spec (v_sz v) pos); [lia|]. rewrite Hic. set (ncap := Nat.max (push_back_cap tr (v_cap v)) (length xs + length zs)) in *.
    apply wp_bind. apply wp_allocate; [|assumption]. intros nb Hmb Hnb. destruct (St_fresh _ _ _ _ _ HS Hnb) as [Hn1 Hn2].
    set (C := replicate (ncap - (length xs + length zs)) (@Raw V)).
    assert (RB : replicate ncap (@Raw V) = replicate pos Raw ++ replicate (length zs) Raw ++ (replicate (length xs - pos) Raw ++ C)).
    { unfold C. rewrite <- !replicate_add. f_equal. unfold ncap. lia. }
    apply wp_bind, wp_guarded. rewrite RB. apply con_ok; [apply replicate_length|apply replicate_length|apply raw_avail|apply HA1; assumption| |].
    + apply wp_bind, wp_guarded. eapply wp_wrap_frame; [eassumption|exact HS|assumption|assumption|apply replicate_length|apply replicate_length|apply raw_avail|apply raw_avail| |].
      * intros h1 Hd. apply wp_bind. eapply wp_free_old; [exact Hd|assumption|reflexivity|]. apply wp_bind. eapply wp_set; [eassumption|]. apply wp_ret. apply HQ; [|lia|reflexivity].
        apply St_mk; cbn [v_blk v_sz v_cap]; try assumption; [reflexivity| |apply raw_avail|]; rewrite !app_length, take_length, drop_length; [lia|]. unfold C. rewrite replicate_length. unfold ncap. lia.
      * intros A' ys h1 LA' HA' Ly HS1. assert (Hn3 : h1 !! nb = None). { destruct HS1 as (_ & _ & HS1). destruct (v_blk v) as [b|]; [|destruct HS1 as (-> & _); assumption]. destruct HS1 as (_ & R & -> & _). rewrite lookup_insert_ne by congruence. assumption. }
        apply wp_bind. apply des_ok; [assumption|]. intros B LB HB.
        eapply wp_deallocate; [apply lookup_insert| |apply Forall_avail_lookup|].
        -- unfold C. rewrite !app_length, !replicate_length. unfold ncap. lia.
        -- repeat (apply Forall_app; split; try assumption); apply raw_avail.
        -- rewrite delete_insert by assumption. rewrite <- (list_insert_id rg r v Hr). eapply HE. eassumption.
    + rewrite <- RB. eapply wp_deallocate; [apply lookup_insert|apply replicate_length|apply Forall_avail_lookup, raw_avail|]. rewrite delete_insert by assumption. assumption.
  - rewrite andb_true_r. assert (Hc0 : 0 < v_cap v) by lia. destruct (St_blk _ _ _ _ _ HS Hc0) as (b & R & Hb & Hf & Eh & HR & HRl). rewrite Hsz.
    destruct (Nat.eqb_spec pos (length xs)) as [Ep|Ep]; cbn [negb andb].
    + (* at the end *)
      destruct (Nat.ltb_spec (length xs) pos); [lia|]. unfold blk. rewrite Hb. apply wp_bind, wp_ret, wp_bind. eapply wp_set; [eassumption|]. apply wp_bind, wp_guarded. subst h.
      rewrite <- (take_drop (length zs) R) in *. apply Forall_app in HR as [HR1 HR2]. assert (LR : length (take (length zs) R) = length zs) by (rewrite take_length; rewrite take_drop in HRl; lia).
      apply con_ok; [rewrite fmap_length; congruence|assumption|assumption|apply HA2; assumption| |].
      * apply wp_ret. rewrite <- Hb. fold (resz v (length xs + length zs)). apply HQ; [|auto|lia]. rewrite (take_ge xs), (drop_ge xs), app_nil_r by lia. rewrite app_assoc, <- fmap_app. apply St_mk; cbn [Ops2.resz v_blk v_sz v_cap]; try assumption; rewrite app_length; [reflexivity|]. rewrite app_length in HRl. lia.
      * apply wp_bind. eapply wp_get; [eapply lkp_ins; eassumption|]. eapply wp_set; [eapply lkp_ins; eassumption|]. cbn [v_blk v_sz v_cap]. rewrite list_insert_insert. replace (length xs + length zs - length zs) with (v_sz v) by lia. replace (mkV (Some b) (v_sz v) (v_cap v)) with v by (rewrite <- Hb; destruct v; reflexivity).
        rewrite list_insert_id by assumption. exact HE0.
    + destruct internal; [apply Hredo; [lia|assumption|reflexivity]|]. destruct (Nat.ltb_spec (length xs) pos); [lia|]. unfold blk. rewrite Hb. apply wp_bind, wp_ret, wp_bind.
      eapply (wp_make_window r v xs pos (length zs)); [eassumption|exact HS|exact Hb|lia|lia|lia| |exact HE].
      intros B C LB HB HC LC. apply wp_bind, wp_guarded. apply con_ok; [rewrite fmap_length, take_length; lia|assumption|assumption|apply HA3; [exact Hb|lia|assumption|reflexivity]| |].
      * apply wp_ret. apply HQ; [|auto|lia]. replace (LV take pos xs ++ LV zs ++ LV drop pos xs ++ C) with (LV (take pos xs ++ zs ++ drop pos xs) ++ C) by (rewrite !fmap_app, <- !app_assoc; reflexivity).
        apply St_mk; cbn [Ops2.resz v_blk v_sz v_cap]; try assumption; rewrite !app_length, take_length, drop_length; lia.
      * unfold undo_window. apply wp_bind. eapply wp_get; [eapply lkp_ins; eassumption|]. cbn [Ops2.resz v_blk v_sz v_cap]. rewrite Hb. cbn [default]. apply wp_bind. rewrite (app_assoc (LV take pos xs)).
        apply (sg_destroy_range tr b (pos + length zs) (length xs + length zs - (pos + length zs)) (LV take pos xs ++ B)); [rewrite app_length, fmap_length, take_length; lia|rewrite drop_length; lia|]. intros B' LB' HB'.
        eapply wp_set; [eapply lkp_ins; eassumption|]. rewrite list_insert_insert, <- Hb. fold (resz v pos). apply (HE _ (take pos xs)). rewrite <- app_assoc.
        apply St_mk; cbn [Ops2.resz v_blk v_sz v_cap]; try assumption; rewrite ?app_length, ?take_length; try lia. repeat (apply Forall_app; split; try assumption).
Qed.
End Real.

Definition argc (a : @arg V) (x : V) (n : nat) (h : heap) (b i : nat) : Prop := aval h a x /\ forall l, a = Ref l -> rng b i n l = false.
(** the argument does not lie in the moved part of the vector *)
Definition unmoved v xs pos n a : Prop := length xs + n <= v_cap v -> pos < length xs -> forall l, a = Ref l -> v_blk v <> Some l.1.
Lemma argc_fresh v xs a x n pos hf h nb cs : St v xs hf h -> argok hf v xs a x -> h !! nb = None -> argc a x n (<[nb := cs]> h) nb pos.
Proof.
  intros HS Ha Hn. destruct (argok_new _ _ _ _ _ _ _ cs HS Hn Ha) as [H1 H2]. split; [assumption|]. intros l El. specialize (H2 _ El). unfold rng. apply Nat.eqb_neq in H2. rewrite H2. reflexivity.
Qed.
Lemma argc_end v xs a x n hf h b : St v xs hf h -> argok hf v xs a x -> v_blk v = Some b -> argc a x n h b (length xs).
Proof.
  intros HS Ha Hb. split; [eapply argok_aval; eassumption|]. intros l ->. cbn [Ops1.argok] in Ha. unfold rng. destruct (Nat.eqb_spec l.1 b) as [E1|E1]; [|reflexivity]. cbn [andb]. destruct Ha as [Ha|[_ Ha]].
  - destruct HS as (_ & _ & HS). rewrite Hb in HS. destruct HS as (Hf & _). unfold cellat in Ha. rewrite E1, Hf in Ha. discriminate.
  - apply lookup_lt_Some in Ha. destruct (Nat.leb_spec (length xs) l.2); [lia|reflexivity].
Qed.
Lemma argc_other v xs a x n pos hf h b cs : St v xs hf h -> argok hf v xs a x -> v_blk v = Some b -> (forall l, a = Ref l -> v_blk v <> Some l.1) -> argc a x n (<[b := cs]> hf) b pos.
Proof.
  intros HS Ha Hb Hn. destruct a as [y|l]; [split; [exact Ha|discriminate]|]. specialize (Hn l eq_refl). assert (l.1 <> b) by congruence. cbn [Ops1.argok] in Ha. destruct Ha as [Ha|[Ha _]]; [|contradiction]. split.
  - cbn [aval]. rewrite cell_other by assumption. assumption.
  - intros l' [= <-]. unfold rng. destruct (Nat.eqb_spec l.1 b); [contradiction|reflexivity].
Qed.
Lemma not_internal hf v xs a x : argok hf v xs a x -> v_sz v = length xs -> is_internal v a = false -> (forall b, v_blk v = Some b -> hf !! b = None) -> forall l, a = Ref l -> v_blk v <> Some l.1.
Proof.
  intros Ha Hsz Hi Hf l -> Hb. cbn [Ops1.argok] in Ha. destruct Ha as [Ha|[_ Ha]].
  - unfold cellat in Ha. rewrite (Hf _ Hb) in Ha. discriminate.
  - unfold is_internal in Hi. rewrite Hb, Nat.eqb_refl in Hi. cbn [andb] in Hi. apply lookup_lt_Some in Ha. apply Nat.ltb_ge in Hi. lia.
Qed.
Notation inserted v xs pos zs hf Q rg r := (forall v' h', St v' (take pos xs ++ zs ++ drop pos xs) hf h' -> (length xs + length zs <= v_cap v -> v_blk v' = v_blk v /\ v_cap v' = v_cap v) -> (v_cap v < length xs + length zs -> v_cap v' = Nat.max (push_back_cap tr (v_cap v)) (length xs + length zs)) -> Q pos h' (<[r := v']> rg)).

Lemma wp_insert_one r v xs pos internal (redo : M nat) a mv x (Q : post nat) E hf h rg : wft -> rg !! r = Some v -> St v xs hf h -> pos <= length xs -> fits (length xs + 1) -> argok hf v xs a x -> (mv = true -> exists y, a = Val y) ->
  (internal = false -> unmoved v xs pos 1 a) -> (pos < length xs -> length xs + 1 <= v_cap v -> internal = true -> wp redo Q E h rg) ->
  inserted v xs pos [x] hf Q rg r -> (forall v' ys h', St v' ys hf h' -> E h' (<[r := v']> rg)) ->
  wp (insert_one tr moved r pos internal redo a mv) Q E h rg.
Proof.
  intros Hw Hr HS Hpos Hfit Ha Hmv Hun Hredo HQ HE. unfold insert_one.
  apply (wp_real_insert [x] _ _ (argc a x 1)) with (v := v) (xs := xs) (hf := hf); try assumption.
  - intros b i A B C hf' Q' E' rg' LA LB HB [Hv _] HQ' HE'. destruct B as [|c [|? ?]]; [discriminate| |discriminate]. apply Forall_cons in HB as [Hc _]. cbn [app] in *.
    eapply (sg_construct tr moved); [assumption|assumption|exact Hv|assumption|exact HQ'|intros _; exact HE'].
  - intros b i A C hf' Q' E' rg' LA HQ'. cbn [fmap list_fmap app]. eapply (sg_destroy tr); [assumption|]. intros c Hc. apply (HQ' [c]); [reflexivity|constructor; [assumption|constructor]].
  - intros nb cs Hn. eapply argc_fresh; eassumption.
  - intros b Hb ->. eapply argc_end; eassumption.
  - intros b cs Hb Hp Hc Hi. eapply argc_other; try eassumption. apply (Hun Hi); assumption.
Qed.
Lemma wp_emplace r v xs pos a mv x (Q : post nat) E hf h rg : wft -> rg !! r = Some v -> St v xs hf h -> pos <= length xs -> fits (length xs + 1) -> argok hf v xs a x -> (mv = true -> exists y, a = Val y) -> unmoved v xs pos 1 a ->
  inserted v xs pos [x] hf Q rg r -> (forall v' ys h', St v' ys hf h' -> E h' (<[r := v']> rg)) -> wp (emplace tr moved r pos a mv) Q E h rg.
Proof. intros. unfold emplace. eapply wp_insert_one; try eassumption; [auto|discriminate]. Qed.
Lemma wp_insert_any r v xs pos a mv x (Q : post nat) E hf h rg : wft -> rg !! r = Some v -> St v xs hf h -> pos <= length xs -> fits (length xs + 1) -> argok hf v xs a x -> (mv = true -> exists y, a = Val y) ->
  inserted v xs pos [x] hf Q rg r -> (forall v' ys h', St v' ys hf h' -> E h' (<[r := v']> rg)) ->
  wp (v <- get r ;; insert_one tr moved r pos (is_internal v a) (c <- local_copy tr moved a mv ;; insert_one tr moved r pos false wrong c true) a mv) Q E h rg.
Proof.
  intros Hw Hr HS Hpos Hfit Ha Hmv HQ HE. apply wp_bind. eapply wp_get; [eassumption|]. eapply wp_insert_one; try eassumption.
  - intros Hi _ _. eapply not_internal; try eassumption; [eapply St_sz; eassumption|]. intros b Hb. destruct HS as (_ & _ & HS). rewrite Hb in HS. apply HS.
  - intros _ _ _. apply wp_bind. eapply wp_local_copy; try eassumption.
    + eapply wp_insert_one; try eassumption; [reflexivity|eauto|intros _ _ _ l El; discriminate|discriminate].
    + rewrite <- (list_insert_id rg r v Hr). eapply HE. eassumption.
Qed.
Lemma wp_insert_copy r v xs pos a x (Q : post nat) E hf h rg : wft -> rg !! r = Some v -> St v xs hf h -> pos <= length xs -> fits (length xs + 1) -> argok hf v xs a x ->
  inserted v xs pos [x] hf Q rg r -> (forall v' ys h', St v' ys hf h' -> E h' (<[r := v']> rg)) -> wp (insert_copy tr moved r pos a) Q E h rg.
Proof. intros. unfold insert_copy. eapply wp_insert_any; try eassumption. discriminate. Qed.
Lemma wp_insert_move r v xs pos x (Q : post nat) E hf h rg : wft -> rg !! r = Some v -> St v xs hf h -> pos <= length xs -> fits (length xs + 1) ->
  inserted v xs pos [x] hf Q rg r -> (forall v' ys h', St v' ys hf h' -> E h' (<[r := v']> rg)) -> wp (insert_move tr moved r pos (Val x)) Q E h rg.
Proof. intros. unfold insert_move. eapply wp_insert_any; try eassumption; [reflexivity|eauto]. Qed.

Lemma wp_insert_fill_at r v xs pos n internal (redo : M nat) a x (Q : post nat) E hf h rg : wft -> rg !! r = Some v -> St v xs hf h -> pos <= length xs -> fits (length xs + n) -> argok hf v xs a x ->
  (internal = false -> unmoved v xs pos n a) -> (pos < length xs -> length xs + n <= v_cap v -> internal = true -> wp redo Q E h rg) ->
  inserted v xs pos (replicate n x) hf Q rg r -> (forall v' ys h', St v' ys hf h' -> E h' (<[r := v']> rg)) ->
  wp (insert_fill_at tr moved r pos n internal redo a) Q E h rg.
Proof.
  intros Hw Hr HS Hpos Hfit Ha Hun Hredo HQ HE. unfold insert_fill_at. assert (Ln : length (replicate n x) = n) by apply replicate_length.
  pose proof (wp_real_insert (replicate n x) (fun b i => ufill tr moved b i n a) (fun b i => destroy_range tr b i n) (argc a x n)) as HR. rewrite Ln in HR.
  apply HR with (v := v) (xs := xs) (hf := hf); clear HR; try assumption.
  - intros b i A B C hf' Q' E' rg' LA LB HB [Hv Hl] HQ' HE'. eapply (sg_ufill tr moved); [assumption|assumption|assumption|exact Hv|exact Hl|exact HQ'|intros _; exact HE'].
  - intros b i A C hf' Q' E' rg' LA HQ'. eapply (sg_destroy_range tr); [assumption|assumption|]. exact HQ'.
  - intros nb cs Hn. eapply argc_fresh; eassumption.
  - intros b Hb ->. eapply argc_end; eassumption.
  - intros b cs Hb Hp Hc Hi. eapply argc_other; try eassumption. apply (Hun Hi); assumption.
  - intros v' h' HS' H1 H2. apply HQ; [assumption| |]; rewrite Ln; assumption.
Qed.
Lemma wp_insert_fill r v xs pos n a x (Q : post nat) E hf h rg : wft -> rg !! r = Some v -> St v xs hf h -> pos <= length xs -> fits (length xs + n) -> argok hf v xs a x ->
  inserted v xs pos (replicate n x) hf Q rg r -> (forall v' ys h', St v' ys hf h' -> E h' (<[r := v']> rg)) -> wp (insert_fill tr moved r pos n a) Q E h rg.
Proof.
  intros Hw Hr HS Hpos Hfit Ha HQ HE. unfold insert_fill. apply wp_bind. eapply wp_by_vt; [exact HS|exact Ha|]. intros a' Ha' Hv Hr'. apply wp_bind. eapply wp_get; [eassumption|].
  eapply wp_insert_fill_at; try eassumption.
  - intros Hi _ _. destruct (t_byval tr) eqn:Eb; [rewrite (Hv eq_refl); discriminate|]. cbn [negb andb] in Hi. eapply not_internal; try eassumption; [eapply St_sz; eassumption|]. intros b Hb. destruct HS as (_ & _ & HS). rewrite Hb in HS. apply HS.
  - intros _ _ _. apply wp_bind. eapply wp_local_copy; try eassumption; [discriminate| |].
    + eapply wp_insert_fill_at; try eassumption; [reflexivity|intros _ _ _ l El; discriminate|discriminate].
    + rewrite <- (list_insert_id rg r v Hr). eapply HE. eassumption.
Qed.
Lemma wp_insert_list r v xs pos zs mv (Q : post nat) E hf h rg : wft -> rg !! r = Some v -> St v xs hf h -> pos <= length xs -> fits (length xs + length zs) ->
  inserted v xs pos zs hf Q rg r -> (forall v' ys h', St v' ys hf h' -> E h' (<[r := v']> rg)) -> wp (insert_list tr moved r pos zs mv) Q E h rg.
Proof.
  intros Hw Hr HS Hpos Hfit HQ HE. unfold insert_list. apply (wp_real_insert zs _ _ (fun _ _ _ => True)) with (v := v) (xs := xs) (hf := hf); try assumption; auto.
  - intros b i A B C hf' Q' E' rg' LA LB HB _ HQ' HE'. eapply (sg_ucopy_list tr moved); [assumption|assumption|assumption|exact HQ'|intros _; exact HE'].
  - intros b i A C hf' Q' E' rg' LA HQ'. eapply (sg_destroy_range tr); [assumption|reflexivity|]. exact HQ'.
  - discriminate.
Qed.
End Ops.
