(** Tables whose hash and equality objects may answer anything: the invariant that survives, and what each
    function of [AnyHash] does to the elements. *)
From stdpp Require Import list.
From Coq Require Import Arith NArith ZArith Lia.
From Coq Require Import ZifyBool ZifyNat ZifyN.
From Verif.Common Require Import Res Word WordFacts.
From Verif.Swiss Require Import Group GroupSpec Model Probe Inv TableInv Resize Ops AnyHashSpec AnyHash.
Ltac Zify.zify_post_hook ::= Z.div_mod_to_equations.
Local Open Scope nat_scope.
Local Open Scope res_scope.
Local Arguments cnt : simpl never.
Local Arguments elems : simpl never.

(** ** Elements and slots *)
Section Slots.
Context {A : Type}.
Lemma elems_app (l1 l2 : list (option A)) : elems (l1 ++ l2) = elems l1 ++ elems l2.
Proof. unfold elems. apply omap_app. Qed.
Lemma elems_split (slots : list (option A)) i e : slots !! i = Some (Some e) ->
  exists l2, elems slots = elems (take i slots) ++ e :: l2 /\
    elems (<[i := None]> slots) = elems (take i slots) ++ l2 /\
    forall e', elems (<[i := Some e']> slots) = elems (take i slots) ++ e' :: l2.
Proof.
  intros Hi. exists (elems (drop (S i) slots)).
  assert (Hl : i < length slots) by (apply lookup_lt_Some in Hi; assumption).
  split; [|split].
  - rewrite <- (take_drop_middle slots i _ Hi) at 1. rewrite elems_app, elems_cons_some. reflexivity.
  - rewrite insert_take_drop by assumption. rewrite elems_app, elems_cons_none. reflexivity.
  - intros e'. rewrite insert_take_drop by assumption. rewrite elems_app, elems_cons_some. reflexivity.
Qed.
End Slots.

Section Any.
Context {K V : Type} (E : env) (HE : env_ok E).
Set Default Proof Using "HE".
Notation HG := (eo_group E HE).
Notation g := (e_group E).
Notation W := (g_width (e_group E)).
Notation elt := (K * V)%type.
Notation table := (table K V).

(** lemmas about control bytes only, stated in sections with keys that behave *)
Lemma unit_ok : KeyOK (fun _ : unit => 0%N) (fun _ _ => true).
Proof using. constructor; reflexivity. Qed.

Record winv0 (t : table) : Prop := {
  w_wfc : wfc E (t_ctrl t) (t_cap t);
  w_slen : length (t_slots t) = t_cap t;
  w_rel : forall i c s, i < t_cap t -> t_ctrl t !! i = Some c -> t_slots t !! i = Some s ->
    match s with Some _ => (0 <= c)%Z | None => (c < 0)%Z end
}.
Record winv (t : table) : Prop := {
  wv_0 : winv0 t;
  wv_size : t_size t = length (elems (t_slots t));
  wv_room : t_size t + ndel (t_ctrl t) (t_cap t) <= CapacityToGrowth W (t_cap t);
  wv_growth : t_growth t = N.of_nat (CapacityToGrowth W (t_cap t) - t_size t - ndel (t_ctrl t) (t_cap t));
  wv_small : S (t_cap t) < W -> ndel (t_ctrl t) (t_cap t) = 0;
  wv_bytes : (needed_bytes E (N.of_nat (t_cap t)) <= e_max_bytes E)%N
}.
Definition wgood (t : table) : Prop := t = empty_table \/ winv t.

Lemma w_slot t i : winv0 t -> i < t_cap t -> exists c s, t_ctrl t !! i = Some c /\ t_slots t !! i = Some s /\
  match s with Some _ => (0 <= c)%Z | None => (c < 0)%Z end /\ sb c.
Proof using.
  intros Ht Hi. destruct (wfc_byte _ _ _ (w_wfc _ Ht) i Hi) as (c & Hc & Hs).
  destruct (lookup_lt_is_Some_2 (t_slots t) i) as [s Hsl]; [rewrite (w_slen _ Ht); assumption|].
  exists c, s. repeat split; try assumption. eapply (w_rel _ Ht); eassumption.
Qed.
Lemma w_full t i c : winv0 t -> i < t_cap t -> t_ctrl t !! i = Some c -> (0 <= c)%Z ->
  exists e, t_slots t !! i = Some (Some e).
Proof using.
  intros Ht Hi Hc H0. destruct (w_slot t i Ht Hi) as (c' & s & Hc' & Hs & Hr & _).
  rewrite Hc in Hc'. injection Hc' as <-. destruct s as [e|]; [eauto|lia].
Qed.
Lemma w_none t i c : winv0 t -> i < t_cap t -> t_ctrl t !! i = Some c -> (c < 0)%Z -> t_slots t !! i = Some None.
Proof using.
  intros Ht Hi Hc H0. destruct (w_slot t i Ht Hi) as (c' & s & Hc' & Hs & Hr & _).
  rewrite Hc in Hc'. injection Hc' as <-. destruct s as [e|]; [lia|assumption].
Qed.
Lemma w_ctrl t i e : winv0 t -> t_slots t !! i = Some (Some e) ->
  i < t_cap t /\ exists c, t_ctrl t !! i = Some c /\ (0 <= c)%Z /\ sb c.
Proof using.
  intros Ht Hs. assert (Hi : i < t_cap t) by (rewrite <- (w_slen _ Ht); apply lookup_lt_Some in Hs; assumption).
  split; [assumption|]. destruct (w_slot t i Ht Hi) as (c & s & Hc & Hs' & Hr & Hsb).
  rewrite Hs in Hs'. injection Hs' as <-. eauto.
Qed.

(** ** Counting *)
Lemma w_cnt_rel (l : list Z) (s : list (option elt)) : length l = length s ->
  (forall i c x, l !! i = Some c -> s !! i = Some x -> match x with Some _ => (0 <= c)%Z | None => (c < 0)%Z end) ->
  cnt isFul l = length (elems s).
Proof using.
  revert s. induction l as [|c l IH]; intros [|x s] Hl Hr; cbn in Hl; try discriminate; [reflexivity|].
  rewrite cnt_cons. pose proof (Hr 0 c x eq_refl eq_refl) as H0.
  rewrite (IH s); [|lia|intros i; apply (Hr (S i))].
  unfold isFul in *. destruct x as [e|]; [rewrite elems_cons_some|rewrite elems_cons_none]; cbn [length];
    destruct (Z.leb_spec 0 c); lia.
Qed.
Lemma w_count t : winv0 t ->
  length (elems (t_slots t)) + ndel (t_ctrl t) (t_cap t) + cnt isEmp (take (t_cap t) (t_ctrl t)) = t_cap t.
Proof.
  intros Ht. destruct (take_bytes _ _ E HG unit_ok _ _ (w_wfc _ Ht)) as [Hs Hl].
  rewrite <- (w_cnt_rel (take (t_cap t) (t_ctrl t))).
  - unfold ndel. rewrite cnt_bytes by assumption. exact Hl.
  - rewrite Hl. symmetry. apply (w_slen _ Ht).
  - intros i c x Hi Hx.
    assert (i < t_cap t). { apply lookup_lt_Some in Hi. lia. }
    rewrite lookup_take in Hi by assumption. eapply (w_rel _ Ht); eassumption.
Qed.
Lemma w_ex_empty t : winv0 t -> length (elems (t_slots t)) + ndel (t_ctrl t) (t_cap t) < t_cap t ->
  exists i, i < t_cap t /\ t_ctrl t !! i = Some kEmpty.
Proof.
  intros Ht Hlt. pose proof (w_count t Ht).
  destruct (cnt_pos_ex isEmp (take (t_cap t) (t_ctrl t))) as (i & x & Hi & Hx); [lia|].
  assert (i < t_cap t). { apply lookup_lt_Some in Hi. rewrite take_length in Hi. lia. }
  rewrite lookup_take in Hi by assumption. exists i. split; [assumption|].
  unfold isEmp in Hx. apply Z.eqb_eq in Hx. congruence.
Qed.
Lemma w_ex_nonfull t : winv0 t -> length (elems (t_slots t)) < t_cap t ->
  exists i, i < t_cap t /\ nonfull_at (t_ctrl t) i.
Proof.
  intros Ht Hlt. pose proof (w_count t Ht).
  assert (Hor : 0 < ndel (t_ctrl t) (t_cap t) \/ 0 < cnt isEmp (take (t_cap t) (t_ctrl t))) by lia.
  destruct Hor as [Ho|Ho]; apply cnt_pos_ex in Ho; destruct Ho as (i & x & Hi & Hx);
  (assert (i < t_cap t); [apply lookup_lt_Some in Hi; rewrite take_length in Hi; lia|]);
  rewrite lookup_take in Hi by assumption; exists i; (split; [assumption|]); exists x; (split; [assumption|]);
  unfold isEmp, isDel, kEmpty, kDeleted in Hx; lia.
Qed.
Lemma w_all_full t : winv0 t -> length (elems (t_slots t)) = t_cap t ->
  forall i, i < t_cap t -> ~ nonfull_at (t_ctrl t) i.
Proof.
  intros Ht Hl i Hi (c & Hc & Hneg). pose proof (w_count t Ht).
  assert (H0 : cnt isDel (take (t_cap t) (t_ctrl t)) = 0) by (unfold ndel in *; lia).
  assert (H1 : cnt isEmp (take (t_cap t) (t_ctrl t)) = 0) by lia.
  rewrite cnt_zero in H0, H1.
  assert (Hc' : take (t_cap t) (t_ctrl t) !! i = Some c) by (rewrite lookup_take by assumption; assumption).
  specialize (H0 _ _ Hc'). specialize (H1 _ _ Hc'). unfold isDel, isEmp, kDeleted, kEmpty in *.
  destruct (wfc_byte _ _ _ (w_wfc _ Ht) i Hi) as (c' & Hc2 & Hs). rewrite Hc in Hc2. injection Hc2 as <-.
  unfold sb, kEmpty, kDeleted in Hs. lia.
Qed.
Lemma w_size t : wgood t -> t_size t = length (elems (t_slots t)).
Proof using. intros [->|Ht]; [reflexivity|apply (wv_size _ Ht)]. Qed.
Lemma w_cap t : winv t -> valid_cap (t_cap t).
Proof using. intros Ht. apply (wfc_cap _ _ _ (w_wfc _ (wv_0 _ Ht))). Qed.
Lemma w_room t : wgood t -> t_size t <= CapacityToGrowth W (t_cap t) /\ t_size t <= t_cap t.
Proof using.
  intros [->|Ht]; [cbn; lia|]. pose proof (wv_room _ Ht). pose proof (cap_le_growth E (t_cap t)). lia.
Qed.
Lemma w_has_empty t : winv t -> S (t_cap t) < W \/ exists i, i < t_cap t /\ t_ctrl t !! i = Some kEmpty.
Proof.
  intros Ht. destruct (Nat.lt_ge_cases (S (t_cap t)) W) as [?|Hl]; [left; assumption|right].
  apply (w_ex_empty t (wv_0 _ Ht)). rewrite <- (wv_size _ Ht).
  pose proof (wv_room _ Ht). destruct (growth_facts E HE _ (w_cap t Ht)) as (_ & _ & Hg & _). lia.
Qed.

(** ** Lookup *)
Context (hash : nat -> K -> N) (eqb : nat -> K -> K -> bool).
Set Default Proof Using "All".

(** the result of a search whose functor calls are numbered from [n] to [n'] *)
Definition found (t : table) (k : K) (n : nat) (r : option nat) (n' : nat) : Prop :=
  n <= n' /\
  match r with
  | Some p => exists e i, t_slots t !! p = Some (Some e) /\ n <= i < n' /\ eqb i k (fst e) = true
  | None => True
  end.
Lemma found_le t k n n1 r n' : n <= n1 -> found t k n1 r n' -> found t k n r n'.
Proof.
  intros Hn [H1 H2]. split; [lia|]. destruct r; [|exact I]. destruct H2 as (e & i & H2 & H3 & H4).
  exists e, i. repeat split; try assumption; lia.
Qed.
Lemma match_any_ok t k o is : winv0 t -> o <= t_cap t ->
  (forall d, In d is -> d < W /\ exists c, t_ctrl t !! (o + d) = Some c /\ (0 <= c)%Z) ->
  forall n, exists r n', match_any eqb n t k o is = Ok (r, n') /\ found t k n r n'.
Proof.
  intros Ht Ho. induction is as [|d is IH]; intros Hin n; cbn [match_any].
  - exists None, n. split; [reflexivity|]. split; [lia|exact I].
  - destruct (Hin d (or_introl eq_refl)) as (Hd & c & Hc & H0).
    rewrite probe_at_mod by apply (wfc_cap _ _ _ (w_wfc _ Ht)).
    set (p := (o + d) mod S (t_cap t)).
    assert (Hp : p < S (t_cap t)) by (apply Nat.mod_upper_bound; lia).
    assert (Hcp : t_ctrl t !! p = Some c).
    { destruct (byte_cases E HG _ _ o d (w_wfc _ Ht) Ho Hd) as [[_ Hb]|(_ & _ & Hb)].
      - fold p in Hb. congruence.
      - rewrite Hb in Hc. injection Hc as <-. unfold kEmpty in H0. lia. }
    assert (Hpc : p < t_cap t).
    { destruct (Nat.eq_dec p (t_cap t)) as [He|]; [|lia]. rewrite He, (wfc_sent _ _ _ (w_wfc _ Ht)) in Hcp.
      injection Hcp as <-. unfold kSentinel in H0. lia. }
    destruct (w_full t p c Ht Hpc Hcp H0) as (e & Hs).
    rewrite (load_some _ _ _ Hs). cbn [rbind of_option].
    destruct (eqb n k (fst e)) eqn:Ek.
    + exists (Some p), (S n). split; [reflexivity|]. split; [lia|]. exists e, n. repeat split; try assumption; lia.
    + destruct (IH ltac:(intros d' Hd'; apply Hin; right; assumption) (S n)) as (r & n' & Hr & Hf).
      exists r, n'. split; [exact Hr|]. eapply found_le; [|exact Hf]. lia.
Qed.
Lemma find_any_ok t k h nstar : winv0 t ->
  ~ nempty E (t_ctrl t) (t_cap t) (poffh E (t_cap t) h nstar) ->
  forall fuel j, j <= nstar -> nstar - j < fuel ->
  forall n, exists r n', find_any eqb E fuel n t k h (poffh E (t_cap t) h j) (j * W) = Ok (r, n') /\ found t k n r n'.
Proof.
  intros Ht Hns. pose proof (w_wfc _ Ht) as Hwf.
  induction fuel as [|f IH]; intros j Hj Hf n; [lia|]. cbn [find_any].
  set (o := poffh E (t_cap t) h j) in *. assert (Ho : o <= t_cap t) by apply poffh_le.
  destruct (window_ok E HG _ _ _ Hwf Ho) as (w & Hw & Hl & Hv & Hb). rewrite Hw. cbn [rbind].
  destruct (match_any_ok t k o (g_match g w (H2 h)) Ht Ho) with (n := n) as (r & n1 & Hr & Hfd).
  { intros d Hd. destruct (gok_match_sound _ HG w _ d Hl Hv (H2_range _) Hd) as (c & Hc & H0).
    assert (Hdl : d < W) by (apply lookup_lt_Some in Hc; lia). split; [assumption|].
    exists c. rewrite <- Hb by assumption. split; assumption. }
  rewrite Hr. cbn [rbind]. destruct r as [p|]; [eauto|].
  destruct (g_any_empty g w) eqn:Hae; [eauto|].
  unfold o. rewrite (probe_next_off E _ _ _ (wfc_cap _ _ _ Hwf)).
  destruct (Nat.eq_dec j nstar) as [->|].
  - exfalso. apply Hns. apply (any_empty_nempty E HG _ _ _ _ Hwf Ho Hw). assumption.
  - destruct (IH (S j) ltac:(lia) ltac:(lia) n1) as (r' & n' & Hr' & Hf'). exists r', n'. split; [exact Hr'|].
    eapply found_le; [|exact Hf']. apply Hfd.
Qed.
Lemma find_hash_ok t k h n : wgood t -> exists r n', find_hash eqb E n t k h = Ok (r, n') /\ found t k n r n'.
Proof.
  intros [->|Ht].
  - exists None, n. split; [|split; [lia|exact I]]. unfold find_hash. cbn [t_cap empty_table find_any t_ctrl].
    destruct (empty_window E HE h) as (-> & w & Hw & Hl & Hv & H0 & Hd).
    change (kEmpty :: replicate 14 kEmpty) with (replicate 15 kEmpty) in *.
    rewrite Hw. cbn [rbind].
    assert (Hm : g_match g w (H2 h) = []).
    { destruct (g_match g w (H2 h)) as [|d l] eqn:Em; [reflexivity|]. exfalso.
      destruct (gok_match_sound _ HG w (H2 h) d Hl Hv (H2_range _)) as (c & Hc & Hp); [rewrite Em; left; reflexivity|].
      assert (Hdl : d < W) by (apply lookup_lt_Some in Hc; lia).
      destruct (Nat.eq_dec d 0) as [->|]; [rewrite H0 in Hc|rewrite Hd in Hc by lia]; injection Hc as <-; unfold kSentinel, kEmpty in Hp; lia. }
    rewrite Hm. cbn [match_any rbind].
    assert (Ha : g_any_empty g w = true).
    { apply (gok_any_empty _ HG w Hl Hv). exists 1. apply Hd. pose proof (W_cases E HG). lia. }
    rewrite Ha. reflexivity.
  - pose proof (wv_0 _ Ht) as Ht0. pose proof (w_wfc _ Ht0) as Hwf. pose proof (wfc_cap _ _ _ Hwf) as Hcap.
    unfold find_hash.
    assert (Hex : exists nstar, nstar <= t_cap t /\
               ~ nempty E (t_ctrl t) (t_cap t) (poffh E (t_cap t) h nstar)).
    { destruct (w_has_empty t Ht) as [Hs|(i & Hi & He)].
      - exists 0. split; [lia|]. intros [H _]. lia.
      - destruct (cover_ex E HG (t_cap t) (probe_start h (t_cap t)) i Hcap) as (m & Hm & (d & Hd & HdM & Hmod) & _).
        + rewrite (poffh_0 E) by assumption. apply poffh_le.
        + lia.
        + exists m. split; [assumption|]. intros [_ Hne]. apply (Hne d Hd). unfold poffh. rewrite Hmod. assumption. }
    destruct Hex as (ns & Hns & Hnn). rewrite (poffh_0 E _ _ Hcap).
    destruct (find_any_ok t k h ns Ht0 Hnn (S (t_cap t)) 0 ltac:(lia) ltac:(lia) n) as (r & n' & Hr & Hf). eauto.
Qed.

(** ** Raw insertion *)
Lemma w_ffnf t h : winv0 t -> length (elems (t_slots t)) < t_cap t ->
  exists p c, find_first_non_full E (t_ctrl t) (t_cap t) h = Ok p /\ p < t_cap t /\
    t_ctrl t !! p = Some c /\ (c < -1)%Z /\ t_slots t !! p = Some None.
Proof.
  intros Ht Hlt. pose proof (w_wfc _ Ht) as Hwf.
  destruct (ffnf_ok E HG (t_ctrl t) (t_cap t) h Hwf (w_ex_nonfull t Ht Hlt)) as (m & p & Hr & Hm & Hp & (c & Hc & Hn) & _).
  exists p, c. repeat split; try assumption. eapply w_none; [eassumption|assumption|eassumption|lia].
Qed.
Lemma w_insert t p e h c : winv0 t -> p < t_cap t -> t_ctrl t !! p = Some c -> (c < -1)%Z ->
  t_slots t !! p = Some None ->
  exists ctrl', set_ctrl E (t_ctrl t) (t_cap t) p (H2 h) = Ok ctrl' /\
    construct (t_slots t) p e = Ok (<[p := Some e]> (t_slots t)) /\
    (forall sz gr, winv0 (mkTable ctrl' (<[p := Some e]> (t_slots t)) sz (t_cap t) gr)) /\
    elems (<[p := Some e]> (t_slots t)) ≡ₚ e :: elems (t_slots t) /\
    ndel ctrl' (t_cap t) + (if isDel c then 1 else 0) = ndel (t_ctrl t) (t_cap t).
Proof.
  intros Ht Hp Hc Hneg Hs. pose proof (w_wfc _ Ht) as Hwf.
  destruct (set_ctrl_ok E HG (t_ctrl t) (t_cap t) p (H2 h) Hwf Hp (H2_sb _)) as (ctrl' & Hset & Hwf' & Hcp & Hoth & _).
  exists ctrl'. split; [assumption|]. split; [apply construct_ok; assumption|]. split; [|split].
  - intros sz gr. constructor; cbn [t_ctrl t_slots t_size t_cap t_growth].
    + assumption.
    + rewrite insert_length. apply (w_slen _ Ht).
    + intros i c' s Hi Hc' Hsl. destruct (Nat.eq_dec i p) as [->|Hne].
      * rewrite list_lookup_insert in Hsl by (rewrite (w_slen _ Ht); assumption). injection Hsl as <-.
        rewrite Hcp in Hc'. injection Hc' as <-. apply H2_range.
      * rewrite list_lookup_insert_ne in Hsl by congruence. rewrite Hoth in Hc' by lia. eapply (w_rel _ Ht); eassumption.
  - apply elems_insert_some. assumption.
  - pose proof (ndel_set E _ _ _ _ _ _ Hwf Hwf' Hp Hc Hcp Hoth) as Hn. rewrite isDel_H2 in Hn. lia.
Qed.

(** ** Erasure *)
Lemma w_erase t i e : winv t -> t_slots t !! i = Some (Some e) ->
  exists t', erase_at E t i = Ok (e, t') /\ winv t' /\ t_slots t' = <[i := None]> (t_slots t).
Proof.
  intros Hv Hs. pose proof (wv_0 _ Hv) as Ht. pose proof (w_wfc _ Ht) as Hwf.
  destruct (w_ctrl t i e Ht Hs) as (Hi & c & Hci & Hc0 & Hcsb). pose proof (elems_remove _ _ _ Hs) as Hperm.
  unfold erase_at. rewrite (take_slot_ok _ _ _ Hs). cbn [rbind].
  unfold erase_meta_only. cbn [t_ctrl t_cap t_size t_growth t_slots].
  rewrite (load_some _ _ _ Hci). cbn [rbind].
  assert (Hful : IsFull c = true) by (unfold IsFull; lia).
  rewrite Hful.
  destruct (window_ok E HG _ _ i Hwf ltac:(lia)) as (wa & Hwa & _).
  destruct (wfc_cap _ _ _ Hwf) as (k & Hk & HM).
  destruct (sub_and_spec i W (t_cap t) k HM ltac:(lia)) as [Hblt _].
  { destruct (W_cases E HG) as [->| ->]; cbn; lia. }
  destruct (window_ok E HG _ _ (sub_and i W (t_cap t)) Hwf ltac:(lia)) as (wb & Hwb & _).
  rewrite Hwa. cbn [rbind]. rewrite Hwb. cbn [rbind].
  set (nf := g_any_empty g wb && g_any_empty g wa && (g_empty_tz g wa + g_empty_lz g wb <? W)) in *.
  destruct (set_ctrl_ok E HG (t_ctrl t) (t_cap t) i (if nf then kEmpty else kDeleted) Hwf Hi) as (ctrl' & Hset & Hwf' & Hci' & Hoth & _).
  { unfold sb. destruct nf; auto. }
  rewrite Hset. cbn [rbind]. eexists. split; [reflexivity|]. cbn [t_ctrl t_cap t_size t_growth t_slots].
  pose proof (wv_size _ Hv) as Hsz. rewrite (Permutation_length Hperm) in Hsz. cbn [length] in Hsz.
  assert (Hnd : ndel ctrl' (t_cap t) = ndel (t_ctrl t) (t_cap t) + if nf then 0 else 1).
  { pose proof (ndel_set E _ _ _ _ _ _ Hwf Hwf' Hi Hci Hci' Hoth) as Hc.
    assert (isDel c = false) as Hd0 by (unfold isDel, kDeleted; lia).
    rewrite Hd0 in Hc. destruct nf; cbn in Hc |- *; lia. }
  pose proof (wv_room _ Hv) as Hroom. pose proof (wv_growth _ Hv) as Hgr.
  assert (Hmaxcap : (N.of_nat (CapacityToGrowth W (t_cap t)) < 2 ^ 64)%N).
  { pose proof (cap_le_growth E (t_cap t)). pose proof (wv_bytes _ Hv) as Hby. pose proof (eo_max _ HE).
    unfold needed_bytes in Hby. change (2 ^ 64)%N with (4 * 2 ^ 62)%N. lia. }
  split; [|reflexivity].
  constructor; cbn [t_ctrl t_cap t_size t_growth t_slots].
  - constructor; cbn [t_ctrl t_cap t_size t_growth t_slots].
    + assumption.
    + rewrite insert_length. apply (w_slen _ Ht).
    + intros j cj s Hj Hc Hsl. destruct (Nat.eq_dec j i) as [->|Hne].
      * rewrite list_lookup_insert in Hsl by (rewrite (w_slen _ Ht); assumption). injection Hsl as <-.
        rewrite Hci' in Hc. injection Hc as <-. destruct nf; unfold kEmpty, kDeleted; lia.
      * rewrite list_lookup_insert_ne in Hsl by congruence. rewrite Hoth in Hc by lia.
        eapply (w_rel _ Ht); eassumption.
  - lia.
  - destruct nf; lia.
  - rewrite Hgr. unfold wadd. rewrite N.mod_small by (destruct nf; lia). destruct nf; lia.
  - intros Hsm. pose proof (never_full_small _ _ E HG unit_ok _ _ _ _ _ Hwf Hi Hsm Hwa Hwb) as Hnf. fold nf in Hnf.
    rewrite Hnf in Hnd. pose proof (wv_small _ Hv Hsm). lia.
  - apply (wv_bytes _ Hv).
Qed.

(** ** resize *)
Lemma resize_any_ok (old : table) : winv0 old -> forall m i t n, i + m = t_cap old -> winv0 t ->
  ndel (t_ctrl t) (t_cap t) = 0 ->
  length (elems (t_slots t)) + length (elems (drop i (t_slots old))) <= t_cap t ->
  exists t' n', resize_any hash E n (seq i m) (t_ctrl old) (t_slots old) t = Ok (t', n') /\ winv0 t' /\
    ndel (t_ctrl t') (t_cap t') = 0 /\ t_size t' = t_size t /\ t_cap t' = t_cap t /\ t_growth t' = t_growth t /\
    elems (t_slots t') ≡ₚ elems (t_slots t) ++ elems (drop i (t_slots old)).
Proof.
  intros Hold. induction m as [|m IH]; intros i t n Hin Ht Hnd Hroom; cbn [seq resize_any].
  - exists t, n. split; [reflexivity|]. split; [assumption|]. split; [assumption|]. split; [reflexivity|]. split; [reflexivity|].
    split; [reflexivity|]. rewrite drop_ge by (rewrite (w_slen _ Hold); lia). rewrite app_nil_r. reflexivity.
  - assert (Hi : i < t_cap old) by lia.
    destruct (w_slot old i Hold Hi) as (c & s & Hc & Hs & Hrel & _).
    rewrite (load_some _ _ _ Hc). cbn [rbind].
    rewrite (drop_cons _ _ _ Hs) in Hroom.
    unfold IsFull. destruct s as [e|].
    + destruct (Z.leb_spec 0 c); [|lia].
      rewrite (load_some _ _ _ Hs). cbn [rbind of_option].
      rewrite elems_cons_some in Hroom. cbn [length] in Hroom.
      destruct (w_ffnf t (hash n (fst e)) Ht ltac:(lia)) as (p & cp & Hp & Hpc & Hcp & Hneg & Hsn).
      rewrite Hp. cbn [rbind].
      destruct (w_insert t p e (hash n (fst e)) cp Ht Hpc Hcp Hneg Hsn) as (ctrl' & Hset & Hcons & Ht' & Hperm & Hn).
      rewrite Hset. cbn [rbind]. rewrite Hcons. cbn [rbind].
      destruct (IH (S i) (mkTable ctrl' (<[p:=Some e]> (t_slots t)) (t_size t) (t_cap t) (t_growth t)) (S n)) as (t' & n' & Hr & Ht'' & Hnd' & Hsz & Hcap & Hgr & Hp'); cbn [t_ctrl t_slots t_size t_cap t_growth] in *.
      * lia.
      * apply Ht'.
      * lia.
      * rewrite (Permutation_length Hperm). cbn [length]. lia.
      * exists t', n'. split; [exact Hr|]. repeat (split; [assumption|]).
        rewrite Hp', (drop_cons _ _ _ Hs), elems_cons_some, Hperm. apply Permutation_middle.
    + destruct (Z.leb_spec 0 c); [lia|]. rewrite elems_cons_none in Hroom.
      destruct (IH (S i) t n ltac:(lia) Ht Hnd Hroom) as (t' & n' & Hr & Hrest).
      exists t', n'. split; [exact Hr|]. rewrite (drop_cons _ _ _ Hs), elems_cons_none. exact Hrest.
Qed.
Lemma w_fresh cap size gr junk : s8 junk -> valid_cap cap ->
  winv0 (@mkTable K V (reset_ctrl E junk cap) (replicate cap None) size cap gr) /\
  ndel (reset_ctrl E junk cap) cap = 0.
Proof.
  intros Hj Hv. destruct (reset_ctrl_wf E HG cap junk Hj Hv) as [Hwf Hemp]. split.
  - constructor; cbn [t_ctrl t_slots t_size t_cap t_growth].
    + assumption.
    + apply replicate_length.
    + intros i c s Hi Hc Hs. rewrite Hemp in Hc by assumption. injection Hc as <-.
      apply lookup_replicate in Hs. destruct Hs as [-> _]. unfold kEmpty. lia.
  - unfold ndel. apply cnt_zero. intros i x Hx.
    assert (i < cap). { apply lookup_lt_Some in Hx. rewrite take_length in Hx. lia. }
    rewrite lookup_take in Hx by assumption. rewrite Hemp in Hx by assumption. injection Hx as <-. reflexivity.
Qed.
Lemma resize_to_ok t m n : wgood t -> valid_cap (N.to_nat m) -> no_wrap E m ->
  t_size t <= CapacityToGrowth W (N.to_nat m) ->
  resize_to hash E n t m = BadAlloc \/
  exists t' n', resize_to hash E n t m = Ok (t', n') /\ winv t' /\ ndel (t_ctrl t') (t_cap t') = 0 /\
    t_size t' = t_size t /\ t_cap t' = N.to_nat m /\ elems (t_slots t') ≡ₚ elems (t_slots t).
Proof.
  intros Hg Hv Hn Hroom. pose proof (w_size t Hg) as Hsz. pose proof (cap_le_growth E (N.to_nat m)) as Hcg.
  unfold resize_to.
  destruct (init_ok (K := K) (V := V) E m (t_size t) Hn) as [[Hi _]|(Hi & Hnb & _)]; rewrite Hi; cbn [rbind].
  - left. reflexivity.
  - right. destruct (w_fresh (N.to_nat m) (t_size t) (growth_left_for E (N.to_nat m) (t_size t)) (e_junk E) (eo_junk E HE) Hv) as [Hf Hnd].
    assert (Hex : exists t' n', resize_any hash E n (seq 0 (t_cap t)) (t_ctrl t) (t_slots t)
       (mkTable (reset_ctrl E (e_junk E) (N.to_nat m)) (replicate (N.to_nat m) None) (t_size t) (N.to_nat m)
          (growth_left_for E (N.to_nat m) (t_size t))) = Ok (t', n') /\ winv0 t' /\
       ndel (t_ctrl t') (t_cap t') = 0 /\ t_size t' = t_size t /\ t_cap t' = N.to_nat m /\
       t_growth t' = growth_left_for E (N.to_nat m) (t_size t) /\ elems (t_slots t') ≡ₚ elems (t_slots t)).
    { destruct Hg as [->|Ht].
      - cbn [t_cap t_ctrl t_slots t_size empty_table seq resize_any]. eexists _, n. split; [reflexivity|].
        cbn [t_ctrl t_slots t_size t_cap t_growth]. repeat (split; [first [assumption|reflexivity]|]).
        rewrite elems_replicate_none. reflexivity.
      - destruct (resize_any_ok t (wv_0 _ Ht) (t_cap t) 0 _ n eq_refl Hf) as (t' & n' & Hr & Ht' & Hnd' & Hs' & Hc & Hgr & Hp);
          cbn [t_ctrl t_slots t_size t_cap t_growth] in *.
        + assumption.
        + rewrite elems_replicate_none, drop_0. cbn [length]. lia.
        + exists t', n'. rewrite elems_replicate_none, drop_0 in Hp. repeat (split; [assumption|]). exact Hp. }
    destruct Hex as (t' & n' & Hr & Ht' & Hnd' & Hs' & Hc & Hgr & Hp).
    exists t', n'. split; [exact Hr|]. split; [|repeat (split; [assumption|]); assumption].
    constructor.
    + assumption.
    + rewrite Hs', Hsz. symmetry. apply Permutation_length. assumption.
    + rewrite Hnd', Hs', Hc. lia.
    + rewrite Hgr, Hnd', Hs', Hc. rewrite (growth_left_small E HE) by assumption. f_equal. lia.
    + intros _. assumption.
    + rewrite Hc, N2Nat.id. assumption.
Qed.

(** ** drop_deletes_without_resize *)
Record wdrop (t : table) (i : nat) : Prop := {
  wd_wfc : wfc E (t_ctrl t) (t_cap t);
  wd_slen : length (t_slots t) = t_cap t;
  wd_i : i <= t_cap t;
  wd_rel : forall j c s, j < t_cap t -> t_ctrl t !! j = Some c -> t_slots t !! j = Some s ->
    match s with
    | Some e => (0 <= c)%Z \/ (c = kDeleted /\ i <= j)
    | None => c = kEmpty
    end
}.
Lemma drop_any_ok : forall fuel t i n, wdrop t i -> (t_cap t - i) + ndel (t_ctrl t) (t_cap t) < fuel ->
  exists t' n', drop_any hash E fuel n t i = Ok (t', n') /\ wdrop t' (t_cap t') /\
    t_size t' = t_size t /\ t_cap t' = t_cap t /\ elems (t_slots t') ≡ₚ elems (t_slots t).
Proof.
  induction fuel as [|f IH]; intros t i n Hd Hf; [lia|]. cbn [drop_any].
  destruct (Nat.eqb_spec i (t_cap t)) as [->|Hne].
  { exists t, n. repeat split; try reflexivity; apply Hd. }
  pose proof (wd_i _ _ Hd). assert (Hi : i < t_cap t) by lia.
  pose proof (wd_wfc _ _ Hd) as Hwf. pose proof (wd_slen _ _ Hd) as Hsl.
  destruct (wfc_byte _ _ _ Hwf i Hi) as (c & Hc & Hsb). rewrite (load_some _ _ _ Hc). cbn [rbind].
  destruct (lookup_lt_is_Some_2 (t_slots t) i) as [s Hs]; [lia|].
  unfold IsDeleted. destruct (Z.eqb_spec c kDeleted) as [Hdel|Hdel]; cbn [negb].
  2:{ apply (IH t (S i)); [|lia]. constructor; [assumption|assumption|lia|].
      intros j c' s' Hj Hc' Hs'. pose proof (wd_rel _ _ Hd j c' s' Hj Hc' Hs') as Hr.
      destruct s' as [e|]; [|assumption]. destruct Hr as [?|[Hcd Hij]]; [auto|]. right. split; [assumption|].
      assert (j <> i) by congruence. lia. }
  subst c. pose proof (wd_rel _ _ Hd i _ s Hi Hc Hs) as Hr. destruct s as [e|]; [|unfold kDeleted, kEmpty in Hr; lia].
  rewrite (load_some _ _ _ Hs). cbn [rbind of_option].
  set (h := hash n (fst e)) in *.
  assert (Hnf : exists j, j < t_cap t /\ nonfull_at (t_ctrl t) j).
  { exists i. split; [assumption|]. exists kDeleted. split; [assumption|]. unfold kDeleted. lia. }
  destruct (ffnf_ok E HG (t_ctrl t) (t_cap t) h Hwf Hnf) as (m & p & Hp & _ & Hpc & Hpn & _ & _).
  rewrite Hp. cbn [rbind].
  destruct (Nat.eqb_spec (probe_index E (t_cap t) h p) (probe_index E (t_cap t) h i)) as [Hpi|Hpi].
  - destruct (set_ctrl_ok E HG (t_ctrl t) (t_cap t) i (H2 h) Hwf Hi (H2_sb _)) as (ctrl' & Hset & Hwf' & Hci' & Hoth & _).
    rewrite Hset. cbn [rbind].
    pose proof (ndel_set E _ _ _ _ _ _ Hwf Hwf' Hi Hc Hci' Hoth) as Hn. rewrite isDel_H2 in Hn. cbn in Hn.
    destruct (IH (mkTable ctrl' (t_slots t) (t_size t) (t_cap t) (t_growth t)) (S i) (S n)) as (t' & n' & Ht'); cbn [t_ctrl t_slots t_size t_cap t_growth] in *.
    + constructor; cbn [t_ctrl t_slots t_size t_cap t_growth]; [assumption|assumption|lia|].
      intros j cj sj Hj Hcj Hsj. destruct (Nat.eq_dec j i) as [->|Hji].
      * rewrite Hs in Hsj. injection Hsj as <-. left. rewrite Hci' in Hcj. injection Hcj as <-. apply H2_range.
      * rewrite Hoth in Hcj by lia. pose proof (wd_rel _ _ Hd j cj sj Hj Hcj Hsj) as Hrj.
        destruct sj; [|assumption]. destruct Hrj as [?|[? ?]]; [auto|right; split; [assumption|lia]].
    + lia.
    + exists t', n'. exact Ht'.
  - assert (Hpne : p <> i) by (intros ->; congruence).
    destruct Hpn as (cp & Hcp & Hneg). rewrite (load_some _ _ _ Hcp). cbn [rbind].
    destruct (set_ctrl_ok E HG (t_ctrl t) (t_cap t) p (H2 h) Hwf Hpc (H2_sb _)) as (c1 & Hset & Hwf1 & Hc1p & Hoth1 & _).
    pose proof (ndel_set E _ _ _ _ _ _ Hwf Hwf1 Hpc Hcp Hc1p Hoth1) as Hn1. rewrite isDel_H2 in Hn1.
    destruct (wfc_byte _ _ _ Hwf p Hpc) as (cp' & Hcp' & Hsbp). rewrite Hcp in Hcp'. injection Hcp' as <-.
    destruct (lookup_lt_is_Some_2 (t_slots t) p) as [sp Hsp]; [lia|].
    pose proof (wd_rel _ _ Hd p _ sp Hpc Hcp Hsp) as Hrp.
    assert (Hc1i : c1 !! i = Some kDeleted) by (rewrite Hoth1 by lia; assumption).
    unfold IsEmpty. destruct (Z.eqb_spec cp kEmpty) as [Hemp|Hnemp].
    + rewrite Hset. cbn [rbind]. rewrite (take_slot_ok _ _ _ Hs). cbn [rbind].
      destruct sp as [ep|].
      { subst cp. destruct Hrp as [Hrp|[Hrp _]]; unfold kEmpty, kDeleted in *; lia. }
      assert (Hsp1 : <[i:=None]> (t_slots t) !! p = Some None) by (rewrite list_lookup_insert_ne by congruence; assumption).
      rewrite (construct_ok _ _ _ Hsp1). cbn [rbind].
      destruct (set_ctrl_ok E HG c1 (t_cap t) i kEmpty Hwf1 Hi (or_introl eq_refl)) as (c2 & Hset2 & Hwf2 & Hc2i & Hoth2 & _).
      rewrite Hset2. cbn [rbind].
      pose proof (ndel_set E _ _ _ _ _ _ Hwf1 Hwf2 Hi Hc1i Hc2i Hoth2) as Hn2. cbn in Hn2.
      assert (Hc2p : c2 !! p = Some (H2 h)) by (rewrite Hoth2 by lia; assumption).
      assert (Hc2o : forall j, j <= t_cap t -> j <> i -> j <> p -> c2 !! j = t_ctrl t !! j).
      { intros j Hj H1 H2. rewrite Hoth2, Hoth1 by assumption. reflexivity. }
      set (s2 := <[p:=Some e]> (<[i:=None]> (t_slots t))) in *.
      assert (Hs2i : s2 !! i = Some None).
      { unfold s2. rewrite list_lookup_insert_ne by assumption. apply list_lookup_insert. lia. }
      assert (Hs2p : s2 !! p = Some (Some e)).
      { unfold s2. apply list_lookup_insert. rewrite insert_length. lia. }
      assert (Hs2o : forall j, j <> i -> j <> p -> s2 !! j = t_slots t !! j).
      { intros j H1 H2. unfold s2. rewrite !list_lookup_insert_ne by congruence. reflexivity. }
      assert (Hperm : elems s2 ≡ₚ elems (t_slots t)).
      { unfold s2. rewrite (elems_insert_some _ _ _ Hsp1). symmetry. apply elems_remove. assumption. }
      destruct (IH (mkTable c2 s2 (t_size t) (t_cap t) (t_growth t)) (S i) (S n)) as (t' & n' & Hr' & Hd' & Hsz & Hcap & Hp'); cbn [t_ctrl t_slots t_size t_cap t_growth] in *.
      * constructor; cbn [t_ctrl t_slots t_size t_cap t_growth]; try assumption; try lia.
        -- unfold s2. rewrite !insert_length. assumption.
        -- intros j cj sj Hj Hcj Hsj. destruct (Nat.eq_dec j i) as [->|Hji].
           { rewrite Hs2i in Hsj. injection Hsj as <-. congruence. }
           destruct (Nat.eq_dec j p) as [->|Hjp].
           { rewrite Hs2p in Hsj. injection Hsj as <-. left. rewrite Hc2p in Hcj. injection Hcj as <-. apply H2_range. }
           rewrite Hc2o in Hcj by lia. rewrite Hs2o in Hsj by assumption.
           pose proof (wd_rel _ _ Hd j cj sj Hj Hcj Hsj) as Hrj.
           destruct sj; [|assumption]. destruct Hrj as [?|[? ?]]; [auto|right; split; [assumption|lia]].
      * lia.
      * exists t', n'. split; [exact Hr'|]. repeat (split; [assumption|]). rewrite Hp'. exact Hperm.
    + assert (Hcpd : cp = kDeleted).
      { unfold sb in Hsbp. destruct Hsbp as [?|[?|?]]; [congruence|assumption|lia]. }
      subst cp. destruct sp as [ep|]; [|unfold kDeleted, kEmpty in Hrp; lia].
      destruct Hrp as [Hrp|[_ Hip]]; [unfold kDeleted in Hrp; lia|].
      rewrite Hset. cbn [rbind]. rewrite (take_slot_ok _ _ _ Hs). cbn [rbind].
      assert (Hsp1 : <[i:=None]> (t_slots t) !! p = Some (Some ep)) by (rewrite list_lookup_insert_ne by congruence; assumption).
      rewrite (take_slot_ok _ _ _ Hsp1). cbn [rbind].
      set (s2 := <[p:=None]> (<[i:=None]> (t_slots t))) in *.
      assert (Hs2i : s2 !! i = Some None).
      { unfold s2. rewrite list_lookup_insert_ne by assumption. apply list_lookup_insert. lia. }
      rewrite (construct_ok _ _ _ Hs2i). cbn [rbind].
      set (s3 := <[i:=Some ep]> s2) in *.
      assert (Hs3p : s3 !! p = Some None).
      { unfold s3, s2. rewrite list_lookup_insert_ne by congruence. apply list_lookup_insert. rewrite insert_length. lia. }
      rewrite (construct_ok _ _ _ Hs3p). cbn [rbind].
      set (s4 := <[p:=Some e]> s3) in *.
      assert (Hl3 : length s3 = t_cap t) by (unfold s3, s2; rewrite !insert_length; assumption).
      assert (Hs4i : s4 !! i = Some (Some ep)).
      { unfold s4, s3. rewrite list_lookup_insert_ne by assumption. apply list_lookup_insert.
        unfold s2. rewrite !insert_length. lia. }
      assert (Hs4p : s4 !! p = Some (Some e)) by (unfold s4; apply list_lookup_insert; lia).
      assert (Hs4o : forall j, j <> i -> j <> p -> s4 !! j = t_slots t !! j).
      { intros j H1 H2. unfold s4, s3, s2. rewrite !list_lookup_insert_ne by congruence. reflexivity. }
      assert (Hperm : elems s4 ≡ₚ elems (t_slots t)).
      { unfold s4. rewrite (elems_insert_some _ _ _ Hs3p). unfold s3. rewrite (elems_insert_some _ _ _ Hs2i).
        rewrite (elems_remove _ _ _ Hs). apply Permutation_cons; [reflexivity|]. symmetry. apply elems_remove. assumption. }
      cbn in Hn1.
      destruct (IH (mkTable c1 s4 (t_size t) (t_cap t) (t_growth t)) i (S n)) as (t' & n' & Hr' & Hd' & Hsz & Hcap & Hp'); cbn [t_ctrl t_slots t_size t_cap t_growth] in *.
      * constructor; cbn [t_ctrl t_slots t_size t_cap t_growth]; try assumption; try lia.
        -- unfold s4. rewrite insert_length. assumption.
        -- intros j cj sj Hj Hcj Hsj. destruct (Nat.eq_dec j i) as [->|Hji].
           { rewrite Hs4i in Hsj. injection Hsj as <-. right. split; [congruence|lia]. }
           destruct (Nat.eq_dec j p) as [->|Hjp].
           { rewrite Hs4p in Hsj. injection Hsj as <-. left. rewrite Hc1p in Hcj. injection Hcj as <-. apply H2_range. }
           rewrite Hoth1 in Hcj by lia. rewrite Hs4o in Hsj by assumption.
           apply (wd_rel _ _ Hd j cj sj Hj Hcj Hsj).
      * lia.
      * exists t', n'. split; [exact Hr'|]. repeat (split; [assumption|]). rewrite Hp'. exact Hperm.
Qed.
Lemma drop_deletes_any_ok t n : winv t -> W <= S (t_cap t) ->
  exists t' n', drop_deletes_any hash E n t = Ok (t', n') /\ winv t' /\ ndel (t_ctrl t') (t_cap t') = 0 /\
    t_size t' = t_size t /\ t_cap t' = t_cap t /\ elems (t_slots t') ≡ₚ elems (t_slots t).
Proof.
  intros Hv HWM. pose proof (wv_0 _ Hv) as Ht. pose proof (w_wfc _ Ht) as Hwf.
  unfold drop_deletes_any. destruct (Nat.ltb_spec (t_cap t) (W - 1)); [lia|].
  destruct (convert_ok E HE _ _ Hwf HWM) as (c' & Hc & Hwfc & Hconv). rewrite Hc. cbn [rbind].
  destruct (drop_any_ok (S (2 * t_cap t)) (mkTable c' (t_slots t) (t_size t) (t_cap t) (t_growth t)) 0 n) as (t' & n' & Hr & Hd & Hsz & Hcap & Hp);
    cbn [t_ctrl t_slots t_size t_cap t_growth] in *.
  - constructor; cbn [t_ctrl t_slots t_size t_cap t_growth]; try assumption; try lia.
    + apply (w_slen _ Ht).
    + intros j c s Hj Hcj Hsj. destruct (w_slot t j Ht Hj) as (c0 & s0 & Hc0 & Hs0 & Hrel & _).
      rewrite Hsj in Hs0. injection Hs0 as <-. rewrite (Hconv j c0 Hj Hc0) in Hcj. injection Hcj as <-.
      unfold conv. destruct s as [e|].
      * destruct (Z.ltb_spec c0 0); [lia|]. right. split; [reflexivity|lia].
      * destruct (Z.ltb_spec c0 0); [reflexivity|lia].
  - unfold ndel. pose proof (cnt_le isDel (take (t_cap t) c')) as Hle. rewrite take_length in Hle. lia.
  - rewrite Hr. cbn [rbind]. eexists _, n'. split; [reflexivity|]. cbn [t_ctrl t_slots t_size t_cap t_growth].
    assert (Hnodel : forall j c, j < t_cap t' -> t_ctrl t' !! j = Some c -> c <> kDeleted).
    { intros j c Hj Hcj ->. destruct (lookup_lt_is_Some_2 (t_slots t') j) as [s Hs]; [rewrite (wd_slen _ _ Hd); assumption|].
      pose proof (wd_rel _ _ Hd j _ s Hj Hcj Hs) as Hrel. destruct s as [e|].
      - destruct Hrel as [Hrel|[_ Hrel]]; [unfold kDeleted in Hrel; lia|lia].
      - unfold kDeleted, kEmpty in Hrel. lia. }
    assert (Hnd : ndel (t_ctrl t') (t_cap t') = 0).
    { unfold ndel. apply cnt_zero. intros j c Hj.
      assert (Hjc : j < t_cap t'). { apply lookup_lt_Some in Hj. rewrite take_length in Hj. lia. }
      rewrite lookup_take in Hj by assumption. pose proof (Hnodel j c Hjc Hj). unfold isDel. apply Z.eqb_neq. assumption. }
    pose proof (wv_room _ Hv) as Hroom. pose proof (wv_size _ Hv) as Hs0.
    split; [|repeat split; assumption].
    constructor; cbn [t_ctrl t_slots t_size t_cap t_growth].
    + constructor; cbn [t_ctrl t_slots t_size t_cap t_growth].
      * apply (wd_wfc _ _ Hd).
      * apply (wd_slen _ _ Hd).
      * intros j c s Hj Hcj Hsj. pose proof (wd_rel _ _ Hd j c s Hj Hcj Hsj) as Hrel. destruct s as [e|].
        -- destruct Hrel as [?|[? _]]; [assumption|]. exfalso. eapply Hnodel; eassumption.
        -- subst c. unfold kEmpty. lia.
    + rewrite Hsz, Hs0. symmetry. apply Permutation_length. assumption.
    + rewrite Hnd, Hsz, Hcap. lia.
    + rewrite Hnd. rewrite (growth_left_small E HE); [f_equal; lia| |rewrite Hsz, Hcap; lia].
      rewrite Hcap. apply (wfc_cap _ _ _ Hwf).
    + intros _. assumption.
    + rewrite Hcap. apply (wv_bytes _ Hv).
Qed.

(** ** Growth *)
Lemma grow_any_ok t n : wgood t -> t_growth t = 0%N ->
  grow_any hash E n t = BadAlloc \/
  exists t' n', grow_any hash E n t = Ok (t', n') /\ winv t' /\ ndel (t_ctrl t') (t_cap t') = 0 /\
    t_size t' = t_size t /\ elems (t_slots t') ≡ₚ elems (t_slots t) /\ t_size t' < CapacityToGrowth W (t_cap t').
Proof.
  intros Hg H0. unfold grow_any. pose proof Hg as Hg0. destruct Hg as [->|Ht].
  - change (t_cap empty_table) with 0. cbn [Nat.eqb].
    destruct (resize_to_ok empty_table 1 n Hg0) as [Hb|(t' & n' & Hr & Ht' & Hnd & Hsz & Hcap & Hp)].
    + apply valid_cap_1.
    + apply no_wrap_1. assumption.
    + cbn. lia.
    + left. exact Hb.
    + right. exists t', n'. split; [exact Hr|]. repeat (split; [assumption|]).
      change (t_size empty_table) with 0 in Hsz. change (N.to_nat 1) with 1 in Hcap.
      rewrite Hsz, Hcap. destruct (growth_facts E HE 1 valid_cap_1) as (H1 & _). lia.
  - pose proof (w_cap t Ht) as Hv. destruct (growth_facts E HE _ Hv) as (Hg1 & Hgs & Hgl & Hgd).
    pose proof (wv_room _ Ht) as Hroom. pose proof (wv_growth _ Ht) as Hgr.
    pose proof (wv_bytes _ Ht) as Hby.
    destruct (Nat.eqb_spec (t_cap t) 0) as [Hc0|Hc0].
    { pose proof (valid_cap_cases _ Hv). lia. }
    destruct (Nat.leb_spec (t_size t) (CapacityToGrowth W (t_cap t) / 2)) as [Hle|Hgt].
    + right. assert (Hlarge : W <= S (t_cap t)).
      { destruct (Nat.le_gt_cases W (S (t_cap t))); [assumption|].
        pose proof (wv_small _ Ht ltac:(lia)). lia. }
      destruct (drop_deletes_any_ok t n Ht Hlarge) as (t' & n' & Hr & Ht' & Hnd & Hsz & Hcap & Hp).
      exists t', n'. split; [exact Hr|]. repeat (split; [assumption|]). rewrite Hsz, Hcap. lia.
    + destruct (no_wrap_double E HE (t_cap t) Hby ltac:(lia)) as [Hnw Hwa]. rewrite Hwa.
      assert (Hto : N.to_nat (2 * N.of_nat (t_cap t) + 1) = 2 * t_cap t + 1) by lia.
      assert (Hlt62 : (N.of_nat (t_cap t) < 2 ^ 62)%N).
      { pose proof (eo_max _ HE). unfold needed_bytes in Hby. lia. }
      destruct (resize_to_ok t (2 * N.of_nat (t_cap t) + 1) n Hg0) as [Hb|(t' & n' & Hr & Ht' & Hnd & Hsz & Hcap & Hp)].
      * rewrite Hto. apply valid_cap_double; assumption.
      * assumption.
      * rewrite Hto. lia.
      * left. assumption.
      * right. exists t', n'. split; [exact Hr|]. rewrite Hto in Hcap. repeat (split; [assumption|]).
        rewrite Hsz, Hcap. lia.
Qed.

(** ** Insertion *)
Lemma finish_any_ok t e p h c : winv t -> p < t_cap t -> t_ctrl t !! p = Some c -> (c < -1)%Z ->
  t_slots t !! p = Some None -> ((0 < t_growth t)%N \/ c = kDeleted) ->
  exists t', finish_any E (mkTable (t_ctrl t) (t_slots t) (S (t_size t)) (t_cap t)
        (wsub 64 (t_growth t) (if IsEmpty c then 1%N else 0%N))) p e h = Ok t' /\
    winv t' /\ t_slots t' !! p = Some (Some e) /\ elems (t_slots t') ≡ₚ e :: elems (t_slots t).
Proof.
  intros Ht Hpc Hc Hneg Hsn Hgr. pose proof (wv_0 _ Ht) as Ht0.
  destruct (w_insert t p e h c Ht0 Hpc Hc Hneg Hsn) as (ctrl' & Hset & Hcons & Hti & Hperm & Hnd).
  eexists. split.
  { unfold finish_any. cbn [t_slots t_ctrl t_cap t_size t_growth]. rewrite Hcons. cbn [rbind].
    rewrite Hset. cbn [rbind]. reflexivity. }
  assert (Hsb : sb c). { destruct (wfc_byte _ _ _ (w_wfc _ Ht0) p Hpc) as (c' & Hc' & Hs). congruence. }
  pose proof (wv_growth _ Ht) as Hg. pose proof (wv_room _ Ht) as Hroom. pose proof (wv_size _ Ht) as Hsz.
  assert (HN64 : (t_growth t < 2 ^ 64)%N).
  { pose proof (cap_le_growth E (t_cap t)). pose proof (wv_bytes _ Ht) as Hby. pose proof (eo_max _ HE).
    unfold needed_bytes in Hby. change (2 ^ 64)%N with (4 * 2 ^ 62)%N. lia. }
  cbn [t_slots t_ctrl t_cap t_size t_growth].
  split; [|split; [apply list_lookup_insert; apply lookup_lt_Some in Hsn; assumption|exact Hperm]].
  constructor; cbn [t_slots t_ctrl t_cap t_size t_growth].
  - apply Hti.
  - rewrite (Permutation_length Hperm). cbn [length]. lia.
  - unfold isDel, IsEmpty in *. unfold sb in Hsb. destruct Hsb as [->|[->|?]]; [|cbn in Hnd; lia|lia].
    cbn in Hnd. destruct Hgr as [Hgr|Hgr]; [lia|]. unfold kEmpty, kDeleted in Hgr. lia.
  - unfold isDel, IsEmpty in *. unfold sb in Hsb. destruct Hsb as [->|[->|?]]; [| |lia].
    + cbn in Hnd. change (kEmpty =? kEmpty)%Z with true. cbv iota.
      destruct Hgr as [Hgr|Hgr]; [|unfold kEmpty, kDeleted in Hgr; lia].
      rewrite wsub_small by lia. lia.
    + cbn in Hnd. change (kDeleted =? kEmpty)%Z with false. cbv iota. rewrite wsub_small by lia. lia.
  - intros Hs. pose proof (wv_small _ Ht Hs) as H0. lia.
  - apply (wv_bytes _ Ht).
Qed.
(** the place is prepared with the hash [h]; the control byte is that of any hash [h'] *)
Lemma insert_two_ok t e h h' n : wgood t ->
  prepare_any hash E n t h = BadAlloc \/
  exists t1 p n' t2, prepare_any hash E n t h = Ok (t1, p, n') /\ finish_any E t1 p e h' = Ok t2 /\
    winv t2 /\ t_slots t2 !! p = Some (Some e) /\ elems (t_slots t2) ≡ₚ e :: elems (t_slots t).
Proof.
  intros Hg. unfold prepare_any.
  assert (Hff : exists p0 c0, find_first_non_full E (t_ctrl t) (t_cap t) h = Ok p0 /\ t_ctrl t !! p0 = Some c0 /\
            ((c0 = kDeleted \/ (0 < t_growth t)%N) -> winv t /\ p0 < t_cap t /\ (c0 < -1)%Z /\ t_slots t !! p0 = Some None)).
  { destruct Hg as [->|Ht].
    - exists 0, kSentinel. split; [apply (ffnf_empty E HE)|]. split; [reflexivity|].
      intros [H|H]; [discriminate|cbn in H; lia].
    - pose proof (wv_room _ Ht) as Hroom. pose proof (wv_size _ Ht) as Hsz.
      pose proof (cap_le_growth E (t_cap t)) as Hcg.
      destruct (Nat.lt_ge_cases (t_size t) (t_cap t)) as [Hlt|Hge].
      + destruct (w_ffnf t h (wv_0 _ Ht) ltac:(lia)) as (p & c & Hp & Hpc & Hc & Hn & Hs).
        exists p, c. auto 10.
      + destruct (growth_facts E HE _ (w_cap t Ht)) as (_ & _ & Hgl & _).
        assert (Hsm : S (t_cap t) < W) by (destruct (Nat.lt_ge_cases (S (t_cap t)) W) as [|Hl]; [assumption|specialize (Hgl Hl); lia]).
        pose proof (w_wfc _ (wv_0 _ Ht)) as Hwf.
        exists (t_cap t), kSentinel. split; [|split; [apply (wfc_sent _ _ _ Hwf)|]].
        * apply ffnf_small_full; [exact HG|assumption|assumption|].
          intros i Hi. apply (w_all_full t (wv_0 _ Ht)); [lia|assumption].
        * intros [H|H]; [discriminate|]. pose proof (wv_growth _ Ht). lia. }
  destruct Hff as (p0 & c0 & Hp0 & Hc0 & Himp). rewrite Hp0. cbn [rbind]. rewrite (load_some _ _ _ Hc0). cbn [rbind].
  destruct ((t_growth t =? 0)%N && negb (IsDeleted c0)) eqn:Hcond.
  - apply andb_true_iff in Hcond. destruct Hcond as [Hgz _]. apply N.eqb_eq in Hgz.
    destruct (grow_any_ok t n Hg Hgz) as [Hb|(t1 & n1 & Hr & Ht1 & Hnd1 & Hsz1 & Hp1 & Hroom1)].
    + left. rewrite Hb. reflexivity.
    + right. rewrite Hr. cbn [rbind]. pose proof (cap_le_growth E (t_cap t1)) as Hcg.
      destruct (w_ffnf t1 h (wv_0 _ Ht1)) as (p & c & Hp & Hpc & Hc & Hn & Hs).
      { rewrite <- (wv_size _ Ht1). lia. }
      rewrite Hp. cbn [rbind]. rewrite (load_some _ _ _ Hc). cbn [rbind].
      destruct (finish_any_ok t1 e p h' c Ht1 Hpc Hc Hn Hs) as (t2 & Hf & Ht2 & Hsp & Hpm).
      { left. rewrite (wv_growth _ Ht1), Hnd1. lia. }
      eexists _, p, n1, t2. split; [reflexivity|]. split; [exact Hf|]. split; [assumption|]. split; [assumption|].
      rewrite Hpm, Hp1. reflexivity.
  - right. assert (Hor : c0 = kDeleted \/ (0 < t_growth t)%N).
    { destruct (IsDeleted c0) eqn:Hd; [left; apply Z.eqb_eq; exact Hd|right].
      rewrite andb_true_r in Hcond. apply N.eqb_neq in Hcond. clear -Hcond. lia. }
    destruct (Himp Hor) as (Ht & Hpc & Hn & Hs). cbn [rbind]. rewrite (load_some _ _ _ Hc0). cbn [rbind].
    destruct (finish_any_ok t e p0 h' c0 Ht Hpc Hc0 Hn Hs) as (t2 & Hf & Ht2 & Hsp & Hpm).
    { tauto. }
    eexists _, p0, n, t2. split; [reflexivity|]. split; [exact Hf|]. auto.
Qed.
Lemma insert_any_ok t e h n : wgood t ->
  prepare_any hash E n t h = BadAlloc \/
  exists t1 p n' t2, prepare_any hash E n t h = Ok (t1, p, n') /\ finish_any E t1 p e h = Ok t2 /\
    winv t2 /\ t_slots t2 !! p = Some (Some e) /\ elems (t_slots t2) ≡ₚ e :: elems (t_slots t).
Proof. exact (insert_two_ok t e h h n). Qed.

Lemma assign_at_ok t i e v : winv t -> t_slots t !! i = Some (Some e) ->
  exists t', assign_at t i v = Ok t' /\ winv t' /\ t_slots t' = <[i := Some (fst e, v)]> (t_slots t).
Proof.
  intros Ht Hs. pose proof (wv_0 _ Ht) as Ht0.
  unfold assign_at. rewrite (load_some _ _ _ Hs). cbn [rbind of_option].
  assert (Hil : i < length (t_slots t)) by (apply lookup_lt_Some in Hs; assumption).
  rewrite store_ok by assumption. cbn [rbind]. eexists. split; [reflexivity|].
  destruct (elems_set (t_slots t) i e (fst e, v) Hs) as (l & Hp1 & Hp2).
  cbn [t_slots t_ctrl t_cap t_size t_growth]. split; [|reflexivity].
  constructor; cbn [t_slots t_ctrl t_cap t_size t_growth];
    [| |exact (wv_room _ Ht)|exact (wv_growth _ Ht)|exact (wv_small _ Ht)|exact (wv_bytes _ Ht)].
  - constructor; cbn [t_slots t_ctrl t_cap t_size t_growth].
    + apply (w_wfc _ Ht0).
    + rewrite insert_length. apply (w_slen _ Ht0).
    + intros j c s Hj Hc Hsj. destruct (Nat.eq_dec j i) as [->|Hne].
      * rewrite list_lookup_insert in Hsj by assumption. injection Hsj as <-.
        apply (w_rel _ Ht0 i c (Some e) Hj Hc Hs).
      * rewrite list_lookup_insert_ne in Hsj by congruence. eapply (w_rel _ Ht0); eassumption.
  - rewrite (wv_size _ Ht). rewrite (Permutation_length Hp1), (Permutation_length Hp2). reflexivity.
Qed.

(** ** rehash / reserve *)
Lemma rehash_any_ok t m0 n : wgood t -> m0 <> 0%N -> (m0 < 2 ^ 64)%N -> no_wrap E (NormalizeCapacity m0) ->
  rehash_any hash E n t m0 = BadAlloc \/
  exists t' n', rehash_any hash E n t m0 = Ok (t', n') /\ wgood t' /\ elems (t_slots t') ≡ₚ elems (t_slots t).
Proof.
  intros Hg Hn Hn64 Hnw. unfold rehash_any.
  destruct (N.eqb_spec m0 0) as [|_]; [congruence|]. cbn [andb orb].
  pose proof (no_wrap_lt E HE _ Hnw) as Hm63. destruct (normalize_ge m0 Hn64) as [Hge Hge1].
  pose proof (w_room t Hg) as [Hroom Hroomc].
  assert (Hcap64 : (N.of_nat (t_cap t) < 2 ^ 64)%N).
  { destruct Hg as [->|Ht]; [cbn; lia|]. pose proof (wv_bytes _ Ht) as Hby. pose proof (eo_max _ HE).
    unfold needed_bytes in Hby. change (2 ^ 64)%N with (4 * 2 ^ 62)%N. lia. }
  destruct (N.ltb_spec (N.of_nat (t_cap t)) (NormalizeCapacity (N.max m0 (N.of_nat (t_size t))))) as [Hlt|Hle].
  - assert (Hmax : NormalizeCapacity (N.max m0 (N.of_nat (t_size t))) = NormalizeCapacity m0).
    { destruct (N.le_gt_cases (N.of_nat (t_size t)) m0) as [Hx|Hx]; [rewrite N.max_l by assumption; reflexivity|].
      exfalso. rewrite N.max_r in Hlt by lia.
      destruct Hg as [->|Ht]; [cbn in Hx; lia|].
      pose proof (normalize_min (N.of_nat (t_size t)) (t_cap t) ltac:(lia) (w_cap t Ht) ltac:(lia)). lia. }
    rewrite Hmax in *. set (m := NormalizeCapacity m0) in *.
    assert (Hvm : valid_cap (N.to_nat m)) by (apply normalize_valid; lia).
    destruct (resize_to_ok t m n Hg) as [Hb|(t' & n' & Hr & Ht' & Hnd & Hsz & Hcap & Hp)].
    + assumption.
    + assumption.
    + destruct Hg as [->|Ht]; [cbn; lia|].
      pose proof (growth_mono E _ _ (w_cap t Ht) Hvm ltac:(lia)). lia.
    + left. auto.
    + right. exists t', n'. split; [assumption|]. split; [right; assumption|assumption].
  - right. exists t, n. auto.
Qed.
Lemma reserve_any_ok t m0 n : wgood t -> m0 <> 0%N -> (m0 < 2 ^ 62)%N ->
  (forall m, GrowthToLowerboundCapacity W m0 = Ok m -> no_wrap E (NormalizeCapacity m)) ->
  reserve_any hash E n t m0 = BadAlloc \/
  exists t' n', reserve_any hash E n t m0 = Ok (t', n') /\ wgood t' /\ elems (t_slots t') ≡ₚ elems (t_slots t).
Proof.
  intros Hg Hn Hlt Hnw. unfold reserve_any.
  destruct (g2l_eq W m0 ltac:(lia) Hlt) as (m & Hm & Hge & Hm63 & Hcase). rewrite Hm. cbn [rbind].
  apply rehash_any_ok; [assumption|lia|change (2 ^ 64)%N with (2 * 2 ^ 63)%N; lia|apply Hnw; assumption].
Qed.

(** ** clear *)
Lemma w_clear t : wgood t -> exists t', clear E t = Ok t' /\ wgood t' /\ elems (t_slots t') = [].
Proof.
  intros Hg. unfold clear. pose proof (w_size t Hg) as Hsz. destruct (Nat.eqb_spec (t_size t) 0) as [H0|H0].
  - exists t. split; [reflexivity|]. split; [assumption|]. apply nil_length_inv. lia.
  - destruct Hg as [->|Ht]; [cbn in H0; lia|].
    pose proof (w_cap t Ht) as Hv. pose proof (valid_cap_cases _ Hv).
    destruct (Nat.eqb_spec (t_cap t) 0); [lia|].
    destruct (wfc_last _ _ _ (w_wfc _ (wv_0 _ Ht))) as (last & Hlast & Hl8).
    rewrite (load_some _ _ _ Hlast). cbn [rbind]. eexists. split; [reflexivity|].
    cbn [t_slots t_ctrl t_cap t_size t_growth]. rewrite elems_replicate_none. split; [|reflexivity].
    right. destruct (w_fresh (t_cap t) 0 (growth_left_for E (t_cap t) 0) last Hl8 Hv) as [Hf Hnd].
    constructor; cbn [t_slots t_ctrl t_cap t_size t_growth].
    + assumption.
    + rewrite elems_replicate_none. reflexivity.
    + rewrite Hnd. lia.
    + rewrite Hnd, (growth_left_small E HE) by (try assumption; lia). f_equal. lia.
    + intros _. assumption.
    + apply (wv_bytes _ Ht).
Qed.

(** ** Iteration *)
Lemma w_skip t : winv t -> forall fuel i, i <= t_cap t -> t_cap t - i < fuel ->
  exists j, skip_empty E fuel t i = Ok j /\ i <= j <= t_cap t /\
    (j = t_cap t \/ exists e, t_slots t !! j = Some (Some e)) /\
    (forall x, i <= x < j -> t_slots t !! x = Some None).
Proof.
  intros Ht. pose proof (wv_0 _ Ht) as Ht0. pose proof (w_wfc _ Ht0) as Hwf.
  induction fuel as [|f IH]; intros i Hi Hf; [lia|]. cbn [skip_empty].
  destruct (Nat.eq_dec i (t_cap t)) as [Hic|Hic].
  - rewrite Hic. rewrite (load_some _ _ _ (wfc_sent _ _ _ Hwf)). cbn [rbind].
    change (IsEmptyOrDeleted kSentinel) with false. cbv iota.
    exists (t_cap t). split; [reflexivity|]. split; [lia|]. split; [left; reflexivity|]. intros; lia.
  - destruct (w_slot t i Ht0 ltac:(lia)) as (c & s & Hc & Hs & Hrel & Hsb).
    rewrite (load_some _ _ _ Hc). cbn [rbind]. unfold IsEmptyOrDeleted, kSentinel.
    destruct (Z.ltb_spec c (-1)) as [Hneg|Hpos].
    + destruct (window_ok E HG _ _ i Hwf ltac:(lia)) as (w & Hw & Hl & Hvw & Hb). rewrite Hw. cbn [rbind].
      destruct (gok_count_leading _ HG w Hl Hvw) as (Hcl & Hbef & Hat).
      set (n := g_count_leading g w) in *.
      assert (Hn1 : 1 <= n).
      { destruct (Nat.eq_dec n 0) as [Hz|]; [|lia]. exfalso. rewrite Hz in Hat.
        pose proof (Hat c) as Hx. rewrite Hb in Hx by (pose proof (W_cases E HG); lia). rewrite Nat.add_0_r in Hx.
        specialize (Hx Hc). lia. }
      assert (Hnc : i + n <= t_cap t).
      { destruct (Nat.le_gt_cases (i + n) (t_cap t)); [assumption|]. exfalso.
        pose proof (Hbef (t_cap t - i) kSentinel ltac:(lia)) as Hx.
        rewrite Hb in Hx by lia. replace (i + (t_cap t - i)) with (t_cap t) in Hx by lia.
        specialize (Hx (wfc_sent _ _ _ Hwf)). unfold kSentinel in Hx. lia. }
      destruct (IH (i + n) ltac:(lia) ltac:(lia)) as (j & Hj & Hij & Hjs & Hjb).
      exists j. split; [exact Hj|]. split; [lia|]. split; [assumption|].
      intros x Hx. destruct (Nat.lt_ge_cases x (i + n)) as [Hlt|Hge]; [|apply Hjb; lia].
      destruct (w_slot t x Ht0 ltac:(lia)) as (cx & sx & Hcx & Hsx & Hrx & _).
      pose proof (Hbef (x - i) cx ltac:(lia)) as Hy. rewrite Hb in Hy by lia.
      replace (i + (x - i)) with x in Hy by lia. specialize (Hy Hcx).
      destruct sx as [e|]; [lia|assumption].
    + exists i. split; [reflexivity|]. split; [lia|]. split; [|intros; lia]. right.
      destruct s as [e|]; [eauto|]. unfold sb, kEmpty, kDeleted in Hsb. lia.
Qed.
Lemma elems_take_none (slots : list (option elt)) i m : i + m <= length slots ->
  (forall x, i <= x < i + m -> slots !! x = Some None) -> elems (take (i + m) slots) = elems (take i slots).
Proof.
  induction m as [|m IH]; intros Hl Hn; [rewrite Nat.add_0_r; reflexivity|].
  rewrite <- Nat.add_succ_comm. cbn [Nat.add].
  rewrite (take_S_r slots (i + m) None) by (apply Hn; lia). rewrite elems_app.
  change (elems [None]) with (@nil elt). rewrite app_nil_r. apply IH; [lia|]. intros x Hx. apply Hn. lia.
Qed.
Lemma w_iterate_from t : winv t -> forall fuel i, i <= t_cap t -> t_cap t - i < fuel ->
  (i = t_cap t \/ exists e, t_slots t !! i = Some (Some e)) ->
  exists is, iterate_from E fuel t i = Ok is /\ deref_all t is = Ok (elems (drop i (t_slots t))) /\
    length is = length (elems (drop i (t_slots t))) /\
    forall j p, is !! j = Some p -> (exists e, t_slots t !! p = Some (Some e)) /\
      length (elems (take p (t_slots t))) = length (elems (take i (t_slots t))) + j.
Proof.
  intros Ht. pose proof (w_slen _ (wv_0 _ Ht)) as Hsl.
  induction fuel as [|f IH]; intros i Hi Hf Hst; [lia|]. cbn [iterate_from].
  destruct (Nat.eqb_spec i (t_cap t)) as [->|Hne].
  - exists []. rewrite drop_ge by lia. split; [reflexivity|]. split; [reflexivity|]. split; [reflexivity|].
    intros j p Hj. discriminate.
  - destruct Hst as [?|(e & He)]; [congruence|].
    unfold next_it. destruct (w_skip t Ht (S (S (t_cap t))) (S i) ltac:(lia) ltac:(lia)) as (j & Hj & Hij & Hjs & Hjb).
    rewrite Hj. cbn [rbind]. destruct (IH j ltac:(lia) ltac:(lia) Hjs) as (is & His & Hde & Hlen & Hin).
    rewrite His. cbn [rbind]. exists (i :: is).
    assert (Hdrop : elems (drop (S i) (t_slots t)) = elems (drop j (t_slots t))).
    { rewrite (elems_drop_none (t_slots t) (j - S i) (S i)); [f_equal; f_equal; lia|lia|].
      intros x Hx. apply Hjb. lia. }
    rewrite (drop_cons _ _ _ He), elems_cons_some, Hdrop.
    split; [reflexivity|]. split; [|split].
    + cbn [deref_all]. unfold deref. rewrite (load_some _ _ _ He). cbn [rbind of_option]. rewrite Hde. reflexivity.
    + cbn [length]. f_equal. assumption.
    + intros [|x] p Hp; cbn in Hp.
      * injection Hp as <-. split; [eauto|lia].
      * destruct (Hin x p Hp) as [Hfull Hln]. split; [assumption|]. rewrite Hln.
        replace j with (S i + (j - S i)) at 1 by lia. rewrite elems_take_none; [|lia|intros y Hy; apply Hjb; lia].
        rewrite (take_S_r _ _ _ He), elems_app, app_length. change (elems [Some e]) with [e]. cbn [length]. lia.
Qed.
Lemma w_iterate t : wgood t ->
  exists is, iterate E t = Ok is /\ to_list E t = Ok (elems (t_slots t)) /\ length is = length (elems (t_slots t)) /\
    forall j p, is !! j = Some p -> (exists e, t_slots t !! p = Some (Some e)) /\ length (elems (take p (t_slots t))) = j.
Proof.
  intros [->|Ht].
  - exists []. split; [reflexivity|]. split; [reflexivity|]. split; [reflexivity|]. intros j p Hj. discriminate.
  - unfold to_list, iterate, begin_it. pose proof (w_slen _ (wv_0 _ Ht)) as Hsl.
    destruct (w_skip t Ht (S (S (t_cap t))) 0 ltac:(lia) ltac:(lia)) as (j & Hj & Hij & Hjs & Hjb).
    rewrite Hj. cbn [rbind].
    destruct (w_iterate_from t Ht (S (t_cap t)) j ltac:(lia) ltac:(lia) Hjs) as (is & His & Hde & Hlen & Hin).
    assert (Hd0 : elems (drop j (t_slots t)) = elems (t_slots t)).
    { rewrite <- (drop_0 (t_slots t)) at 2. symmetry. apply (elems_drop_none (t_slots t) j 0); [lia|]. intros x Hx. apply Hjb. lia. }
    rewrite His. cbn [rbind]. exists is. split; [reflexivity|]. rewrite Hde, Hlen, Hd0.
    split; [reflexivity|]. split; [reflexivity|]. intros x p Hp. destruct (Hin x p Hp) as [Hf Hln].
    split; [assumption|]. rewrite Hln.
    pose proof (elems_take_none (t_slots t) 0 j) as H0. cbn [Nat.add] in H0. rewrite H0; [reflexivity|lia|].
    intros y Hy. apply Hjb. lia.
Qed.
Lemma erase_nth_ok t j : wgood t -> j < length (elems (t_slots t)) ->
  exists e t' l1 l2, erase_nth E t j = Ok (e, t') /\ wgood t' /\ elems (t_slots t) = l1 ++ e :: l2 /\
    length l1 = j /\ elems (t_slots t') = l1 ++ l2.
Proof.
  intros Hg Hj. unfold erase_nth. destruct (w_iterate t Hg) as (is & -> & _ & Hlen & Hin). cbn [rbind].
  destruct (lookup_lt_is_Some_2 is j) as [p Hp]; [lia|]. rewrite Hp. cbn [of_option rbind].
  destruct (Hin j p Hp) as [(e & He) Hl]. destruct Hg as [->|Ht]; [discriminate|].
  destruct (w_erase t p e Ht He) as (t' & Her & Ht' & Hs'). destruct (elems_split _ _ _ He) as (l2 & H1 & H2 & _).
  exists e, t', (elems (take p (t_slots t))), l2. rewrite Hs'. split; [assumption|]. split; [right; assumption|]. auto.
Qed.

(** ** copy *)
Lemma copy_loop_any_ok (l : list elt) : forall (t : table) n, winv0 t -> ndel (t_ctrl t) (t_cap t) = 0 ->
  length (elems (t_slots t)) + length l <= t_cap t ->
  exists t' n', copy_loop_any hash E n l t = Ok (t', n') /\ winv0 t' /\ ndel (t_ctrl t') (t_cap t') = 0 /\
    t_cap t' = t_cap t /\ t_growth t' = t_growth t /\ elems (t_slots t') ≡ₚ elems (t_slots t) ++ l.
Proof.
  induction l as [|e l IH]; intros t n Ht Hnd Hroom; cbn [copy_loop_any].
  - exists t, n. rewrite app_nil_r. auto 10.
  - cbn [length] in Hroom.
    destruct (w_ffnf t (hash n (fst e)) Ht ltac:(lia)) as (p & cp & Hp & Hpc & Hcp & Hneg & Hsn).
    rewrite Hp. cbn [rbind].
    destruct (w_insert t p e (hash n (fst e)) cp Ht Hpc Hcp Hneg Hsn) as (ctrl' & Hset & Hcons & Ht' & Hperm & Hn).
    rewrite Hset. cbn [rbind]. rewrite Hcons. cbn [rbind].
    destruct (IH (mkTable ctrl' (<[p:=Some e]> (t_slots t)) (t_size t) (t_cap t) (t_growth t)) (S n)) as (t' & n' & Hr & Ht'' & Hnd' & Hcap & Hgr & Hp'); cbn [t_ctrl t_slots t_size t_cap t_growth] in *.
    + apply Ht'.
    + lia.
    + rewrite (Permutation_length Hperm). cbn [length]. lia.
    + exists t', n'. split; [exact Hr|]. repeat (split; [assumption|]). rewrite Hp', Hperm. apply Permutation_middle.
Qed.
Lemma copy_any_ok that n : wgood that ->
  copy_any hash E n that = BadAlloc \/
  exists t' n', copy_any hash E n that = Ok (t', n') /\ wgood t' /\ elems (t_slots t') ≡ₚ elems (t_slots that).
Proof.
  intros Hg. destruct (w_iterate that Hg) as (is & _ & Htl & _ & _).
  unfold copy_any. pose proof (w_size that Hg) as Hsz.
  destruct Hg as [->|Ht].
  - right. cbn. eexists _, n. split; [reflexivity|]. split; [left; reflexivity|]. reflexivity.
  - pose proof (w_cap that Ht) as Hv. pose proof (valid_cap_cases _ Hv) as Hcc.
    pose proof (wv_bytes _ Ht) as Hby. pose proof (eo_max _ HE) as Hmax.
    assert (Hc62 : (N.of_nat (t_cap that) < 2 ^ 62)%N) by (unfold needed_bytes in Hby; lia).
    assert (Hnorm : NormalizeCapacity (N.of_nat (t_cap that)) = N.of_nat (t_cap that)).
    { assert (Hc : (N.of_nat (t_cap that) < 2 ^ 64)%N) by (change (2 ^ 64)%N with (4 * 2 ^ 62)%N; lia).
      pose proof (normalize_ge _ Hc) as [H1 _]. pose proof (normalize_min _ (t_cap that) Hc Hv ltac:(lia)). lia. }
    unfold rehash_any. cbn [t_cap t_size empty_table].
    destruct (N.eqb_spec (N.of_nat (t_cap that)) 0) as [|_]; [lia|]. cbn [andb orb].
    rewrite N.max_l by lia. rewrite Hnorm.
    destruct (N.ltb_spec (N.of_nat 0) (N.of_nat (t_cap that))); [|lia].
    assert (Hnw : no_wrap E (N.of_nat (t_cap that))).
    { destruct (no_wrap_double E HE (t_cap that) Hby ltac:(lia)) as [Hd _]. unfold no_wrap in *.
      pose proof (eo_slot _ HE). nia. }
    destruct (resize_to_ok (empty_table : table) (N.of_nat (t_cap that)) n) as [Hb|(t0 & n0 & Hr & Ht0 & Hnd0 & Hsz0 & Hcap0 & Hel0)].
    + left. reflexivity.
    + rewrite Nat2N.id. assumption.
    + assumption.
    + cbn [t_size empty_table]. lia.
    + rewrite Hb. left. reflexivity.
    + rewrite Hr, Htl. cbn [rbind]. right.
      rewrite Nat2N.id in Hcap0. apply Permutation_length in Hel0 as Hl0. cbn in Hl0.
      assert (Hel0' : elems (t_slots t0) = []) by (apply nil_length_inv; exact Hl0).
      destruct (w_room that (or_intror Ht)) as [Hroom Hroomc].
      destruct (copy_loop_any_ok (elems (t_slots that)) t0 n0) as (t1 & n1 & Hcl & Ht1 & Hnd1 & Hcap1 & Hgr1 & Hel1).
      * apply (wv_0 _ Ht0).
      * assumption.
      * rewrite Hel0', Hcap0. cbn. lia.
      * rewrite Hcl. cbn [rbind]. eexists _, n1. split; [reflexivity|]. cbn [t_ctrl t_slots t_size t_cap t_growth].
        rewrite Hel0' in Hel1. cbn in Hel1. split; [|exact Hel1].
        right. constructor; cbn [t_ctrl t_slots t_size t_cap t_growth].
        -- destruct Ht1 as [H1 H2 H3]. constructor; assumption.
        -- rewrite Hsz. symmetry. apply Permutation_length. assumption.
        -- rewrite Hnd1, Hcap1, Hcap0. lia.
        -- rewrite Hnd1, Hgr1, (wv_growth _ Ht0), Hnd0, Hcap1, Hcap0, Hsz0. cbn [t_size empty_table].
           pose proof (cap_le_growth E (t_cap that)) as Hcg.
           rewrite wsub_small by lia. lia.
        -- intros _. assumption.
        -- rewrite Hcap1, Hcap0. apply (wv_bytes _ Ht).
Qed.
End Any.
