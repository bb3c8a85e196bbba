(** Insertion of a range of input iterators (vector.hpp 1526-1541), and what it does. *)
From stdpp Require Import gmap list infinite fin_map_dom.
From Coq Require Import NArith Lia ZifyBool ZifyNat ZifyN.
From Verif.Common Require Import Word.
From Verif.Vec Require Import Model Wp Ranges Segs Ops1 Ops2 Ops3 Ops4 Ops5 Machine Refine.
Local Open Scope nat_scope.

Section Model.
Context {V : Type} (tr : traits) (moved : V -> V) (dflt : V).
Notation M := (@M V).
Notation "x <- m ;; k" := (bind m (fun x => k)) (at level 100, m at next level, right associativity).
Notation "m ;;; k" := (bind m (fun _ => k)) (at level 100, right associativity).

(** vector(first, last, alloc) for move iterators over the elements [pos, size) of vector [r], 799-803, 460-519.
    The iterators are no pointers, so that the elements are moved one by one even if they are trivially copyable. *)
Definition ctor_moved (q r pos : nat) : M unit :=
  o <- get r ;;
  impl_init tr q (v_sz o - pos) ;;;
  guarded
    (v <- get q ;;
     for_guard (v_sz o - pos) 0 (fun k => construct tr moved (default 0 (v_blk v), k) (Ref (default 0 (v_blk o), pos + k)) true)
       (fun k => destroy_range tr (default 0 (v_blk v)) 0 k) ;;;
     set q (mkV (v_blk v) (v_sz o - pos) (v_cap v)))
    (impl_reset0 tr q).
(** the values in [n] cells *)
Fixpoint reads (b i n : nat) : M (list V) :=
  match n with O => ret [] | S n' => x <- read (b, i) ;; t <- reads b (S i) n' ;; ret (x :: t) end.
(** insert(pos, first, last) for input iterators that deliver [zs], 1526-1541.  Register [q] is the local variable
    [storage]; what it held before is destroyed first.  [mv] tells whether the iterators deliver rvalues.
    Simplified: the last call of insert() leaves the elements of [storage] as they are, not moved-from; the destructor
    of [storage] destroys them before anything can look at them. *)
Definition insert_input (r q pos : nat) (zs : list V) (mv : bool) : M nat :=
  dtor tr q ;;;
  v <- get r ;;
  if v_sz v <? pos then wrong
  else
    ctor_moved q r pos ;;;
    guarded
      (destroy_range_e tr r pos ;;;
       push_list tr moved r zs mv ;;;
       o <- get q ;; ys <- reads (default 0 (v_blk o)) 0 (v_sz o) ;;
       v <- get r ;; insert_list tr moved r (v_sz v) ys true)
      (dtor tr q) ;;;
    dtor tr q ;;;
    ret pos.
End Model.

Section Proof.
Context {V : Type} (tr : traits) (moved : V -> V).
Notation heap := (gmap nat (list (@cell V))).
Notation M := (@M V).
Implicit Types (mv : bool) (xs ys zs : list V) (hf h : heap) (rg : list vec) (E : heap -> list vec -> Prop) (A B C R : list (@cell V)) (v : vec) (L : list (list V)).
Notation post A := (A -> heap -> list vec -> Prop).
Notation "x <- m ;; k" := (bind m (fun x => k)) (at level 100, m at next level, right associativity).
Notation "m ;;; k" := (bind m (fun _ => k)) (at level 100, right associativity).
Notation wft := (wft tr).
Notation fits := (fits tr).
Notation avail := (avail (V := V) tr).
Notation "'LV' xs" := (@Live V <$> (xs : list V)) (at level 30).
Notation St := (St (V := V) tr).
Notation Inv := (Inv (V := V) tr).
Notation resz := Ops2.resz.
Notation mvd := (mvd tr moved).

(** ** storage *)
Lemma fmap_move xs pos k R : pos <= length xs ->
  LV xs ++ R = LV (take pos xs) ++ LV (take k (drop pos xs)) ++ (LV (drop k (drop pos xs)) ++ R).
Proof. intros _. rewrite !app_assoc, <- !fmap_app, <- app_assoc, take_drop, take_drop. reflexivity. Qed.

Lemma wp_ctor_moved r q xs pos h rg L : wft -> Inv h rg L -> r <> q -> L !! r = Some xs -> L !! q = Some [] -> rg !! q = Some (mkV None 0 0) -> pos <= length xs ->
  wp (ctor_moved tr moved q r pos)
    (fun _ h' rg' => Inv h' rg' (<[q := drop pos xs]> (<[r := take pos xs ++ (mvd <$> drop pos xs)]> L)))
    (fun h' rg' => exists k, k <= length (drop pos xs) /\ Inv h' rg' (<[r := take pos xs ++ (mvd <$> take k (drop pos xs)) ++ drop k (drop pos xs)]> L)) h rg.
Proof.
  intros Hw HI Hne Hx Hq Hq0 Hpos.
  assert (exists v, rg !! r = Some v) as [v Hr] by (apply lookup_lt_is_Some_2; destruct HI as [-> _]; apply lookup_lt_Some in Hx; assumption).
  pose proof (Inv_St _ _ _ _ _ _ _ HI Hr Hx) as HS. pose proof (St_sz _ _ _ _ HS) as Hsz. pose proof (St_le _ _ _ _ HS) as Hle. pose proof (St_cap _ _ _ _ HS) as Hm.
  unfold ctor_moved. apply wp_bind. eapply wp_get; [exact Hr|]. apply wp_bind. rewrite Hsz. set (T := drop pos xs).
  assert (LT : length T = length xs - pos) by (unfold T; rewrite drop_length; reflexivity). rewrite <- LT.
  assert (E0 : Inv h rg (<[r := take pos xs ++ (mvd <$> take 0 T) ++ drop 0 T]> L)).
  { rewrite take_0, drop_0. cbn [fmap list_fmap app]. unfold T. rewrite take_drop. rewrite list_insert_id by assumption. exact HI. }
  unfold impl_init. destruct (Nat.eqb_spec (length T) 0) as [ET|ET].
  - eapply wp_set; [exact Hq0|]. rewrite (list_insert_id rg) by exact Hq0. apply wp_guarded. apply wp_bind. eapply wp_get; [exact Hq0|]. cbn [v_blk v_cap]. rewrite ET. cbn [for_guard]. apply wp_bind, wp_skip.
    eapply wp_set; [exact Hq0|]. rewrite (list_insert_id rg) by exact Hq0. destruct T; [|discriminate]. cbn [fmap list_fmap].
    rewrite take_0, drop_0 in E0. cbn [fmap list_fmap app] in E0. rewrite list_insert_id; [exact E0|]. rewrite list_lookup_insert_ne by exact Hne. exact Hq.
  - assert (Hft : fits (length T)) by (unfold Ops1.fits; destruct Hw as [_ Hw]; nia). rewrite good_cap_fits by assumption.
    apply wp_bind. apply wp_allocate; [|exists 0; split; [lia|exact E0]]. intros nb Hmb Hnb. eapply wp_set; [exact Hq0|].
    destruct (St_fresh _ _ _ _ _ HS Hnb) as [Hn1 Hn2]. destruct (St_blk _ _ _ _ _ HS) as (b & R & Hb & Hf & Eh & HR & Hl); [lia|].
    assert (Hbb : nb <> b) by congruence. apply wp_guarded. apply wp_bind. eapply wp_get; [apply list_lookup_insert; apply lookup_lt_Some in Hq0; exact Hq0|]. cbn [v_blk v_cap]. rewrite Hb. cbn [default]. apply wp_bind.
    set (hf := own h v) in *.
    assert (Hlq : q < length rg) by (apply lookup_lt_Some in Hq0; exact Hq0).
    (* the vector with other elements in the tail *)
    assert (SR : forall ys, length ys = length xs -> Inv (<[b := LV ys ++ R]> hf) rg (<[r := ys]> L)).
    { intros ys Ly. eapply Inv_same; [exact HI|exact Hr|]. apply St_mk; try assumption; lia. }
    assert (Ltp : length (take pos xs) = pos) by (rewrite take_length; lia).
    apply (wp_con_loop tr moved nb 0 T (fun k => Ref (b, pos + k)) true _ _ b pos).
    + intros k. left. split; [reflexivity|]. left. exact Hbb.
    + intros k h' Hk. reflexivity.
    + intros k. reflexivity.
    + intros k Hk. exists Raw. split; [|right; reflexivity]. unfold cellat. cbn [fst snd]. rewrite lookup_insert. apply lookup_replicate. split; [reflexivity|lia].
    + intros k x Hk. cbn [aval]. rewrite cell_other by (cbn [fst]; congruence). rewrite Eh. rewrite (fmap_move xs pos (length T) R) by assumption. fold T. rewrite firstn_all. apply cell_live; [rewrite fmap_length; exact Ltp|exact Hk].
    + intros _. left. exact Hbb.
    + intros h' Hh. eapply wp_set; [apply list_lookup_insert; exact Hlq|]. rewrite list_insert_insert.
      rewrite Eh in Hh. rewrite (fmap_move xs pos (length T) R) in Hh by assumption. fold T in Hh. rewrite firstn_all, (drop_ge T) in Hh by lia. cbn [fmap list_fmap app] in Hh.
      replace (replicate (length T) (@Raw V)) with ([] ++ replicate (length T) (@Raw V) ++ []) in Hh by (cbn [app]; rewrite app_nil_r; reflexivity).
      apply seg_two in Hh; [|exact Hbb|reflexivity|apply replicate_length|rewrite fmap_length; exact Ltp|rewrite !fmap_length; reflexivity]. subst h'. cbn [app].
      rewrite (app_assoc (LV take pos xs)), <- fmap_app.
      assert (HI1 : Inv (<[b := LV (take pos xs ++ (mvd <$> T)) ++ R]> hf) rg (<[r := take pos xs ++ (mvd <$> T)]> L)) by (apply SR; rewrite app_length, fmap_length; lia).
      eapply Inv_back; [exact HI1|exact Hq0|]. cbn [own v_blk]. apply St_mk; cbn [v_blk v_sz v_cap]; try reflexivity; [exact Hmb| |constructor|cbn [length]; lia].
      rewrite lookup_insert_ne by congruence. exact Hn1.
    + intros h' k Hk _ Hh. unfold src_f in Hh.
      assert (Hh' : h' = <[nb := replicate (length T) (@Raw V)]> (<[b := LV (take pos xs ++ (mvd <$> take k T) ++ drop k T) ++ R]> hf)).
      { rewrite Eh in Hh. rewrite (fmap_move xs pos k R) in Hh by assumption. fold T in Hh.
        rewrite insert_commute in Hh by exact Hbb. apply seg_live in Hh; [|rewrite fmap_length; exact Ltp|rewrite !fmap_length; reflexivity].
        subst h'. rewrite insert_commute by congruence. f_equal. f_equal. rewrite !fmap_app, <- !app_assoc. reflexivity. }
      subst h'. set (ys := take pos xs ++ (mvd <$> take k T) ++ drop k T).
      assert (Ly : length ys = length xs) by (unfold ys; rewrite !app_length, fmap_length, !take_length, drop_length; lia).
      eapply (wp_impl_reset0 tr q (mkV (Some nb) 0 (length T)) []); [apply list_lookup_insert; exact Hlq| |].
      * replace (replicate (length T) (@Raw V)) with (LV [] ++ replicate (length T) (@Raw V)) by reflexivity. apply St_mk; cbn [v_blk v_sz v_cap]; try reflexivity; [exact Hmb|rewrite lookup_insert_ne by congruence; exact Hn1|apply raw_avail|rewrite replicate_length; reflexivity].
      * rewrite list_insert_insert, (list_insert_id rg) by exact Hq0. exists k. split; [lia|]. apply SR. exact Ly.
Qed.
Lemma wp_reads b n : forall i A xs R (Q : post (list V)) E h rg, h !! b = Some (A ++ LV xs ++ R) -> length A = i -> length xs = n -> Q xs h rg -> wp (reads b i n) Q E h rg.
Proof.
  induction n as [|n IH]; intros i A xs R Q E h rg Hb LA Lx HQ; cbn [reads].
  - destruct xs; [|discriminate]. apply wp_ret. exact HQ.
  - destruct xs as [|x xs]; [discriminate|]. apply wp_bind. eapply (wp_read _ x).
    + unfold cellat. cbn [fst snd]. rewrite Hb. rewrite lookup_app_r by lia. replace (i - length A) with 0 by lia. reflexivity.
    + apply wp_bind. apply (IH (S i) (A ++ [Live x]) xs R); [rewrite Hb; rewrite <- app_assoc; reflexivity|rewrite app_length; cbn [length]; lia|cbn [length] in Lx; lia|]. apply wp_ret. exact HQ.
Qed.

(** ** emplace_back of each element: what is there when one of them throws *)
Lemma wp_push_each mv zs : forall r v xs (Q : post unit) E hf h rg, wft -> rg !! r = Some v -> St v xs hf h ->
  (forall v' h', St v' (xs ++ zs) hf h' -> Q tt h' (<[r := v']> rg)) ->
  (forall v' ys h' k, St v' ys hf h' -> k < length zs -> (strong tr = true -> ys = xs ++ take k zs) -> E h' (<[r := v']> rg)) -> wp (push_list tr moved r zs mv) Q E h rg.
Proof.
  induction zs as [|z zs IH]; intros r v xs Q E hf h rg Hw Hr HS HQ HE; cbn [push_list].
  - apply wp_skip. rewrite <- (list_insert_id rg r v Hr). apply HQ. rewrite app_nil_r. assumption.
  - apply wp_bind. eapply (wp_push_back tr moved r v xs (Val z) mv z); [assumption|eassumption|eassumption|reflexivity|intros _; eexists; reflexivity| |].
    + intros v' h' HS' _ _. eapply IH; [assumption|eapply lkp_ins; eassumption|exact HS'| |].
      * intros v2 h2 HS2. rewrite list_insert_insert. rewrite <- app_assoc in HS2. apply HQ. assumption.
      * intros v2 ys h2 k HS2 Hk Hy. rewrite list_insert_insert. apply (HE _ ys _ (S k)); [exact HS2|cbn [length]; lia|]. intros Hst. rewrite (Hy Hst), <- app_assoc. reflexivity.
    + intros h' (ys & _ & Hy & HS'). rewrite <- (list_insert_id rg r v Hr). apply (HE _ ys _ 0); [exact HS'|cbn [length]; lia|]. intros Hst. rewrite (Hy Hst). cbn [take]. rewrite app_nil_r. reflexivity.
Qed.

(** ** a range of values inserted at the end is inserted all or not at all *)
Lemma wp_relocate_move0 d i s j (Q : post unit) E h rg : d <> s -> inblk h d i 0 -> inblk h s j 0 -> Q tt h rg -> wp (relocate_move tr moved d i s j 0) Q E h rg.
Proof.
  intros Hne (ds & Ed & Ld) (ss & Es & Ls) HQ. unfold relocate_move. assert (H0 : wp (memcpy (V := V) d i s j 0) Q E h rg).
  { unfold memcpy. destruct (Nat.eqb_spec d s); [contradiction|]. cbn [andb]. intros o. unfold memmove. cbn [w_heap w_regs w_orc]. rewrite Ed, Es.
    destruct (decide (j + 0 <= length ss)); [|contradiction]. destruct (decide (i + 0 <= length ds)); [|contradiction]. rewrite take_0. cbn [list_inserts w_heap w_regs]. rewrite insert_id by exact Ed. exact HQ. }
  destruct (use_memcpy tr); [exact H0|]. unfold ucopy. destruct (t_triv tr && t_std tr); [apply wp_skip; exact HQ|]. cbn [for_guard]. apply wp_skip. exact HQ.
Qed.
Lemma wp_wrap_end r v xs zs nb A C (Q : post unit) E hf h0 rg : rg !! r = Some v -> St v xs hf h0 -> h0 !! nb = None -> length A = length xs -> Forall avail A ->
  (forall h1, dead (V := V) tr v hf h1 -> Q tt (<[nb := LV (xs ++ zs) ++ C]> h1) rg) ->
  (forall ys h1, length ys = length xs -> (strong tr = true -> ys = xs) -> St v ys hf h1 -> E (<[nb := A ++ LV zs ++ C]> h1) rg) ->
  wp (wrap_frame tr moved r nb (length xs) (length zs)) Q E (<[nb := A ++ LV zs ++ C]> h0) rg.
Proof.
  intros Hr HS Hnb LA HA HQ HE. destruct (St_fresh _ _ _ _ _ HS Hnb) as [Hn1 Hn2]. unfold wrap_frame. apply wp_bind. eapply wp_get; [eassumption|]. destruct HS as (Hl & Hm & HS).
  unfold dead in HQ. destruct (v_blk v) as [b|] eqn:Ev.
  - destruct HS as (Hb & R & -> & HR & Hc). assert (Hne : nb <> b) by congruence. apply wp_bind.
    apply (sg_relocate_move tr moved nb b 0 0 (length xs) [] A (LV zs ++ C) [] xs R); try assumption; try reflexivity.
    + intros ys L1 _. cbn [app]. apply wp_bind, wp_guarded. rewrite <- Hl, Nat.sub_diag. apply wp_relocate_move0; [exact Hne| | |].
      * eexists. rewrite lookup_insert. split; [reflexivity|]. rewrite !app_length, !fmap_length. lia.
      * eexists. rewrite lookup_insert_ne by congruence. rewrite lookup_insert. split; [reflexivity|]. rewrite !app_length, !fmap_length. lia.
      * apply wp_bind. rewrite insert_commute by congruence. apply (sg_relocate_done tr b 0 (length xs) [] ys R); [reflexivity|assumption|]. intros B' LB' HB'. cbn [app].
        apply (sg_relocate_done tr b (length xs) 0 B' [] R); [assumption|reflexivity|]. intros B'' LB'' HB''. destruct B''; [|discriminate]. rewrite insert_commute by congruence.
        rewrite app_assoc, <- fmap_app. apply HQ. split; [assumption|]. eexists. split; [reflexivity|]. split; [apply Forall_app; auto|]. rewrite !app_length. cbn [length]. lia.
    + intros ys L1 Hst _ _. cbn [app]. apply (HE ys); [assumption|exact Hst|]. apply St_mk; try assumption; lia.
  - destruct HS as (-> & Hz & Hc). apply wp_skip. assert (xs = []) as -> by (destruct xs; [reflexivity|cbn [length] in *; lia]). destruct A; [|discriminate]. cbn [app]. apply (HQ hf eq_refl).
Qed.
(** [AC h b i] as in Ops5 *)
Section RealEnd.
Context (zs : list V) (con des : nat -> nat -> M unit) (AC : heap -> nat -> nat -> Prop).
Hypothesis con_ok : forall b i A B C hf (Q : post unit) E rg, length A = i -> length B = length zs -> Forall avail B -> AC (<[b := A ++ B ++ C]> hf) b i ->
  Q tt (<[b := A ++ LV zs ++ C]> hf) rg -> E (<[b := A ++ B ++ C]> hf) rg -> wp (con b i) Q E (<[b := A ++ B ++ C]> hf) rg.
Hypothesis des_ok : forall b i A C hf (Q : post unit) E rg, length A = i -> (forall B, length B = length zs -> Forall avail B -> Q tt (<[b := A ++ B ++ C]> hf) rg) -> wp (des b i) Q E (<[b := A ++ LV zs ++ C]> hf) rg.
Lemma wp_real_insert_end r v xs internal (redo : M nat) (Q : post nat) E hf h rg : wft -> rg !! r = Some v -> St v xs hf h -> fits (length xs + length zs) ->
  (forall nb cs, h !! nb = None -> AC (<[nb := cs]> h) nb (length xs)) ->
  (forall b, v_blk v = Some b -> AC h b (length xs)) ->
  (forall v' h', St v' (xs ++ zs) hf h' -> Q (length xs) h' (<[r := v']> rg)) ->
  (forall ys h', St v ys hf h' -> length ys = length xs -> (strong tr = true -> ys = xs) -> E h' rg) ->
  wp (real_insert tr moved r (length xs) (length zs) internal redo con des) Q E h rg.
Proof using con_ok des_ok.
  intros Hw Hr HS Hfit HA1 HA2 HQ HE. unfold real_insert. pose proof (St_sz _ _ _ _ HS) as Hsz. pose proof (St_le _ _ _ _ HS) as Hle. pose proof (St_cap _ _ _ _ HS) as Hm.
  assert (HE0 : E h rg) by (apply (HE xs); auto).
  destruct (Nat.eqb_spec (length zs) 0) as [E0|E0].
  { assert (zs = []) as Ez by (destruct zs; [reflexivity|discriminate]). apply wp_ret. rewrite <- (list_insert_id rg r v Hr). apply HQ. rewrite Ez, app_nil_r. assumption. }
  apply wp_bind. eapply wp_get; [eassumption|].
  assert (Hadd : szadd (v_sz v) (length zs) = length xs + length zs).
  { unfold szadd, wadd, wmod. unfold Ops1.fits in Hfit. destruct Hw as [[Hs1 _] _]. rewrite N.mod_small by nia. lia. }
  unfold use_fresh. rewrite Hadd. destruct (push_back_cap_ok tr (v_cap v) Hw Hm) as (Hpf & Hpg & _).
  assert (Hic : insert_cap tr v (length zs) = Nat.max (push_back_cap tr (v_cap v)) (length xs + length zs)).
  { unfold insert_cap. rewrite Hadd. apply good_cap_fits; [assumption|]. destruct (Nat.max_spec (push_back_cap tr (v_cap v)) (length xs + length zs)) as [[_ ->]|[_ ->]]; assumption. }
  rewrite Hsz, Nat.eqb_refl. cbn [negb andb]. destruct (Nat.ltb_spec (length xs) (length xs)); [lia|].
  destruct (Nat.ltb_spec (v_cap v) (length xs + length zs)) as [Hfr|Hfr].
  - rewrite Hic. set (ncap := Nat.max (push_back_cap tr (v_cap v)) (length xs + length zs)) in *.
    apply wp_bind. apply wp_allocate; [|assumption]. intros nb Hmb Hnb. destruct (St_fresh _ _ _ _ _ HS Hnb) as [Hn1 Hn2].
    set (C := replicate (ncap - (length xs + length zs)) (@Raw V)).
    assert (RB : replicate ncap (@Raw V) = replicate (length xs) Raw ++ replicate (length zs) Raw ++ C).
    { unfold C. rewrite <- !replicate_add. f_equal. unfold ncap. lia. }
    apply wp_bind, wp_guarded. rewrite RB. apply con_ok; [apply replicate_length|apply replicate_length|apply raw_avail|apply HA1; assumption| |].
    + apply wp_bind, wp_guarded. eapply wp_wrap_end; [eassumption|exact HS|assumption|apply replicate_length|apply raw_avail| |].
      * intros h1 Hd. apply wp_bind. eapply wp_free_old; [exact Hd|assumption|reflexivity|]. apply wp_bind. eapply wp_set; [eassumption|]. apply wp_ret. apply HQ.
        apply St_mk; cbn [v_blk v_sz v_cap]; try assumption; [reflexivity| |apply raw_avail|]; rewrite !app_length; [lia|]. unfold C. rewrite replicate_length. unfold ncap. lia.
      * intros ys h1 Ly Hst HS1. assert (Hn3 : h1 !! nb = None). { destruct HS1 as (_ & _ & HS1). destruct (v_blk v) as [b|]; [|destruct HS1 as (-> & _); assumption]. destruct HS1 as (_ & R & -> & _). rewrite lookup_insert_ne by congruence. assumption. }
        apply wp_bind. apply des_ok; [apply replicate_length|]. intros B LB HB.
        eapply wp_deallocate; [apply lookup_insert| |apply Forall_avail_lookup|].
        -- unfold C. rewrite !app_length, !replicate_length. unfold ncap. lia.
        -- repeat (apply Forall_app; split; try assumption); apply raw_avail.
        -- rewrite delete_insert by assumption. eapply HE; eassumption.
    + rewrite <- RB. eapply wp_deallocate; [apply lookup_insert|apply replicate_length|apply Forall_avail_lookup, raw_avail|]. rewrite delete_insert by assumption. assumption.
  - assert (Hc0 : 0 < v_cap v) by lia. destruct (St_blk _ _ _ _ _ HS Hc0) as (b & R & Hb & Hf & Eh & HR & HRl).
    unfold blk. rewrite Hb. apply wp_bind, wp_ret, wp_bind. eapply wp_set; [eassumption|]. apply wp_bind, wp_guarded. subst h.
    rewrite <- (take_drop (length zs) R) in *. apply Forall_app in HR as [HR1 HR2]. assert (LR : length (take (length zs) R) = length zs) by (rewrite take_length; rewrite take_drop in HRl; lia).
    apply con_ok; [rewrite fmap_length; congruence|assumption|assumption|apply HA2; assumption| |].
    + apply wp_ret. rewrite <- Hb. fold (resz v (length xs + length zs)). apply HQ. rewrite app_assoc, <- fmap_app. apply St_mk; cbn [Ops2.resz v_blk v_sz v_cap]; try assumption; rewrite app_length; [reflexivity|]. rewrite app_length in HRl. lia.
    + apply wp_bind. eapply wp_get; [eapply lkp_ins; eassumption|]. eapply wp_set; [eapply lkp_ins; eassumption|]. cbn [v_blk v_sz v_cap]. rewrite list_insert_insert. replace (length xs + length zs - length zs) with (v_sz v) by lia. replace (mkV (Some b) (v_sz v) (v_cap v)) with v by (rewrite <- Hb; destruct v; reflexivity).
      rewrite (list_insert_id rg) by assumption. exact HE0.
Qed.
End RealEnd.
Notation appended v xs zs hf Q rg r := (forall v' h', St v' (xs ++ zs) hf h' -> Q (length xs) h' (<[r := v']> rg)).
Notation kept v xs hf E rg := (forall ys h', St v ys hf h' -> length ys = length xs -> (strong tr = true -> ys = xs) -> E h' rg).
Lemma wp_insert_end r v xs zs mv (Q : post nat) E hf h rg : wft -> rg !! r = Some v -> St v xs hf h -> fits (length xs + length zs) ->
  appended v xs zs hf Q rg r -> kept v xs hf E rg -> wp (insert_list tr moved r (length xs) zs mv) Q E h rg.
Proof.
  intros Hw Hr HS Hfit HQ HE. unfold insert_list. apply (wp_real_insert_end zs _ _ (fun _ _ _ => True)) with (v := v) (hf := hf); try assumption; auto.
  - intros b i A B C hf' Q' E' rg' LA LB HB _ HQ' HE'. eapply (sg_ucopy_list tr moved); [assumption|assumption|assumption|exact HQ'|intros _; exact HE'].
  - intros b i A C hf' Q' E' rg' LA HQ'. eapply (sg_destroy_range tr); [assumption|reflexivity|]. exact HQ'.
Qed.
Lemma wp_insert_one_end r v xs internal (redo : M nat) a mv x (Q : post nat) E hf h rg : wft -> rg !! r = Some v -> St v xs hf h -> fits (length xs + 1) -> argok (V := V) hf v xs a x -> (mv = true -> exists y, a = Val y) ->
  appended v xs [x] hf Q rg r -> kept v xs hf E rg -> wp (insert_one tr moved r (length xs) internal redo a mv) Q E h rg.
Proof.
  intros Hw Hr HS Hfit Ha Hmv HQ HE. unfold insert_one.
  apply (wp_real_insert_end [x] _ _ (argc a x 1)) with (v := v) (hf := hf); try assumption.
  - intros b i A B C hf' Q' E' rg' LA LB HB [Hv _] HQ' HE'. destruct B as [|c [|? ?]]; [discriminate| |discriminate]. apply Forall_cons in HB as [Hc _]. cbn [app] in *.
    eapply (sg_construct tr moved); [assumption|assumption|exact Hv|assumption|exact HQ'|intros _; exact HE'].
  - intros b i A C hf' Q' E' rg' LA HQ'. cbn [fmap list_fmap app]. eapply (sg_destroy tr); [assumption|]. intros c Hc. apply (HQ' [c]); [reflexivity|constructor; [assumption|constructor]].
  - intros nb cs Hn. eapply argc_fresh; eassumption.
  - intros b Hb. eapply argc_end; eassumption.
Qed.
Lemma wp_insert_fill_end r v xs n internal (redo : M nat) a x (Q : post nat) E hf h rg : wft -> rg !! r = Some v -> St v xs hf h -> fits (length xs + n) -> argok (V := V) hf v xs a x ->
  appended v xs (replicate n x) hf Q rg r -> kept v xs hf E rg -> wp (insert_fill_at tr moved r (length xs) n internal redo a) Q E h rg.
Proof.
  intros Hw Hr HS Hfit Ha HQ HE. unfold insert_fill_at. assert (Ln : length (replicate n x) = n) by apply replicate_length.
  pose proof (wp_real_insert_end (replicate n x) (fun b i => ufill tr moved b i n a) (fun b i => destroy_range tr b i n) (argc a x n)) as HR. rewrite Ln in HR.
  apply HR with (v := v) (hf := hf); clear HR; try assumption.
  - intros b i A B C hf' Q' E' rg' LA LB HB [Hv Hl] HQ' HE'. eapply (sg_ufill tr moved); [assumption|assumption|assumption|exact Hv|exact Hl|exact HQ'|intros _; exact HE'].
  - intros b i A C hf' Q' E' rg' LA HQ'. eapply (sg_destroy_range tr); [assumption|assumption|]. exact HQ'.
  - intros nb cs Hn. eapply argc_fresh; eassumption.
  - intros b Hb. eapply argc_end; eassumption.
Qed.

(** ** the whole call *)
(** what the destination may hold after an exception: the elements behind the position are moved from, or gone *)
Definition left_over (xs : list V) (pos : nat) (zs ys : list V) : Prop :=
  (exists k, k <= length (drop pos xs) /\ ys = take pos xs ++ (mvd <$> take k (drop pos xs)) ++ drop k (drop pos xs)) \/
  (strong tr = true -> exists k, k <= length zs /\ ys = take pos xs ++ take k zs).
Theorem wp_insert_input r q pos zs mv xs h rg L : wft -> Inv h rg L -> r <> q -> L !! r = Some xs -> L !! q = Some [] -> pos <= length xs -> fits (length xs + length zs) ->
  wp (insert_input tr moved r q pos zs mv)
    (fun n h' rg' => n = pos /\ Inv h' rg' (<[r := take pos xs ++ zs ++ drop pos xs]> L))
    (fun h' rg' => exists ys, left_over xs pos zs ys /\ Inv h' rg' (<[r := ys]> L)) h rg.
Proof.
  intros Hw HI Hne Hx Hq Hpos Hfit. unfold insert_input.
  assert (exists v, rg !! q = Some v) as [vq Hvq] by (apply lookup_lt_is_Some_2; destruct HI as [-> _]; apply lookup_lt_Some in Hq; assumption).
  assert (Lr : r < length L) by (apply lookup_lt_Some in Hx; assumption). assert (Lq : q < length L) by (apply lookup_lt_Some in Hq; assumption).
  apply wp_bind. eapply (wp_dtor tr); [exact Hvq|eapply Inv_St; eassumption|].
  pose proof (Inv_back _ _ _ _ _ _ _ _ _ HI Hvq (St_null tr (own h vq))) as HI1. rewrite (list_insert_id L q) in HI1 by exact Hq.
  set (h1 := own h vq) in *. set (rg1 := <[q := mkV None 0 0]> rg) in *.
  assert (Hq1 : rg1 !! q = Some (mkV None 0 0)) by (apply list_lookup_insert; apply lookup_lt_Some in Hvq; exact Hvq).
  assert (exists v, rg1 !! r = Some v) as [v Hv] by (apply lookup_lt_is_Some_2; destruct HI1 as [-> _]; assumption).
  apply wp_bind. eapply wp_get; [exact Hv|]. rewrite (St_sz _ _ _ _ (Inv_St _ _ _ _ _ _ _ HI1 Hv Hx)). destruct (Nat.ltb_spec (length xs) pos); [lia|].
  apply wp_bind. eapply wp_mono; [apply (wp_ctor_moved r q xs pos h1 rg1 L); assumption| |].
  2: { intros h' rg' (k & Hk & HI'). eexists. split; [|exact HI']. left. eauto. }
  intros [] h2 rg2 HI2. set (T := drop pos xs) in *. set (L2 := <[q := T]> (<[r := take pos xs ++ (mvd <$> T)]> L)) in *.
  assert (L2r : L2 !! r = Some (take pos xs ++ (mvd <$> T))) by (unfold L2; rewrite list_lookup_insert_ne by congruence; apply list_lookup_insert; exact Lr).
  assert (L2q : L2 !! q = Some T) by (unfold L2; apply list_lookup_insert; rewrite insert_length; exact Lq).
  assert (Len2 : length L2 = length L) by (unfold L2; rewrite !insert_length; reflexivity).
  assert (Ltp : length (take pos xs) = pos) by (rewrite take_length; lia).
  (* the register of the local vector is emptied *)
  assert (CLOSE : forall ys h3 rg3 (Q : post unit) E, Inv h3 rg3 (<[r := ys]> L2) -> (forall h4 rg4, Inv h4 rg4 (<[r := ys]> L) -> Q tt h4 rg4) -> wp (dtor tr q) Q E h3 rg3).
  { intros ys h3 rg3 Q E HI3 HQ. assert (Hq3 : <[r := ys]> L2 !! q = Some T) by (rewrite list_lookup_insert_ne by congruence; exact L2q).
    assert (exists v, rg3 !! q = Some v) as [v3 Hv3] by (apply lookup_lt_is_Some_2; destruct HI3 as [-> _]; rewrite insert_length, Len2; exact Lq).
    eapply (wp_dtor tr); [exact Hv3|eapply Inv_St; eassumption|]. apply HQ.
    pose proof (Inv_back _ _ _ _ _ _ _ _ _ HI3 Hv3 (St_null tr (own h3 v3))) as HI4. replace (<[q := []]> (<[r := ys]> L2)) with (<[r := ys]> L) in HI4; [exact HI4|].
    unfold L2. rewrite (list_insert_commute _ r q) by congruence. rewrite (list_insert_insert _ q), (list_insert_insert _ r). symmetry. apply list_insert_id. rewrite list_lookup_insert_ne by congruence. exact Hq. }
  assert (exists v, rg2 !! r = Some v) as [v2 Hv2] by (apply lookup_lt_is_Some_2; destruct HI2 as [-> _]; rewrite Len2; assumption).
  pose proof (Inv_St _ _ _ _ _ _ _ HI2 Hv2 L2r) as HS2.
  assert (exists o, rg2 !! q = Some o) as [o Ho] by (apply lookup_lt_is_Some_2; destruct HI2 as [-> _]; rewrite Len2; assumption).
  assert (HB : forall v' ys h', St v' ys (own h2 v2) h' -> Inv h' (<[r := v']> rg2) (<[r := ys]> L2)) by (intros v' ys h' HS'; eapply Inv_back; eassumption).
  apply wp_bind. apply wp_guarded.
  apply wp_bind. eapply (wp_destroy_range_e tr r v2 _ pos); [exact Hv2|exact HS2|rewrite app_length; lia|]. intros h3 HS3. rewrite take_app_alt in HS3 by (symmetry; exact Ltp).
  apply wp_bind. eapply (wp_push_each mv zs r); [assumption|eapply lkp_ins; exact Hv2|exact HS3| |].
  2: { intros v' ys h' k HS' Hk Hst. rewrite list_insert_insert. eapply CLOSE; [apply HB; exact HS'|]. intros h4 rg4 HI4. exists ys. split; [|exact HI4]. right. intros Hs. exists k. split; [lia|apply Hst; exact Hs]. }
  intros v' h4 HS4. rewrite list_insert_insert.
  assert (Hqo : <[r := v']> rg2 !! q = Some o) by (rewrite list_lookup_insert_ne by congruence; exact Ho).
  apply wp_bind. eapply wp_get; [exact Hqo|].
  pose proof (HB _ _ _ HS4) as HI4. assert (Hq4 : <[r := take pos xs ++ zs]> L2 !! q = Some T) by (rewrite list_lookup_insert_ne by congruence; exact L2q).
  destruct (HI4) as (_ & Hvok & _). destruct (Hvok _ _ _ Hqo Hq4) as (Hol & _ & Hob). clear Hvok.
  assert (RD : forall Q : post (list V), Q T h4 (<[r := v']> rg2) -> forall E, wp (reads (default 0 (v_blk o)) 0 (v_sz o)) Q E h4 (<[r := v']> rg2)).
  { intros Q HQ E. destruct (v_blk o) as [b|]; cbn [default].
    - destruct Hob as (R & Hb & _). apply (wp_reads b (v_sz o) 0 [] T R); [exact Hb|reflexivity|exact Hol|exact HQ].
    - destruct Hob as [Hz _]. rewrite Hz in *. destruct T; [|discriminate]. cbn [reads]. apply wp_ret. exact HQ. }
  apply wp_bind. apply RD. apply wp_bind. eapply wp_get; [eapply lkp_ins; exact Hv2|]. rewrite (St_sz _ _ _ _ HS4).
  eapply (wp_insert_end r v' (take pos xs ++ zs) T true); [assumption|eapply lkp_ins; exact Hv2|exact HS4| | |].
  - unfold Ops1.fits in *. rewrite app_length, Ltp. replace (pos + length zs + length T) with (length xs + length zs); [exact Hfit|]. unfold T. rewrite drop_length. lia.
  - intros v5 h5 HS5. rewrite list_insert_insert. apply wp_bind. eapply CLOSE; [apply HB; exact HS5|]. intros h6 rg6 HI6. apply wp_ret. split; [reflexivity|]. rewrite <- app_assoc in HI6. exact HI6.
  - intros ys h5 HS5 _ Hst. eapply CLOSE; [apply HB; exact HS5|]. intros h6 rg6 HI6. exists ys. split; [|exact HI6]. right. intros Hs. exists (length zs). split; [lia|]. rewrite firstn_all. apply Hst. exact Hs.
Qed.
End Proof.
