(** Containers whose hash and equality objects may answer anything: what the functions of [AnyMulti] do. *)
From stdpp Require Import list.
From Coq Require Import Arith NArith ZArith Lia.
From Coq Require Import ZifyBool ZifyNat ZifyN.
From Verif.Common Require Import Res Word WordFacts.
From Verif.Swiss Require Import Group GroupSpec Model Probe Inv TableInv Resize Ops AnyHashSpec AnyHash AnyHashProof
  AnyMultiSpec AnyMulti.
Ltac Zify.zify_post_hook ::= Z.div_mod_to_equations.
Local Open Scope nat_scope.
Local Open Scope res_scope.
Local Arguments cnt : simpl never.
Local Arguments elems : simpl never.

(** ** The numbers of the calls only grow *)
Section Mono.
Context {K V : Type} (hash : nat -> K -> N) (E : env).
Notation table := (table K V).
Ltac step H := match type of H with
  | rbind ?m _ = Ok _ => let x := fresh "x" in let Hx := fresh "Hx" in destruct m as [x| | | |] eqn:Hx; cbn [rbind] in H; try discriminate H
  | (let '(_, _) := ?p in _) = Ok _ => destruct p; cbn [rbind] in H
  | (if ?b then _ else _) = Ok _ => destruct b; cbn [rbind] in H
  end.
Lemma resize_any_mono is : forall n oc os (t : table) t' n', resize_any hash E n is oc os t = Ok (t', n') -> n <= n'.
Proof.
  induction is as [|i is IH]; intros n oc os t t' n' H; cbn [resize_any] in H; [injection H as <- <-; lia|].
  repeat step H; apply IH in H; lia.
Qed.
Lemma drop_any_mono fuel : forall n (t : table) i t' n', drop_any hash E fuel n t i = Ok (t', n') -> n <= n'.
Proof.
  induction fuel as [|f IH]; intros n t i t' n' H; cbn [drop_any] in H; [discriminate|].
  repeat step H; try (apply IH in H; lia). injection H as <- <-. lia.
Qed.
Lemma prepare_any_mono n (t : table) h t' p n' : prepare_any hash E n t h = Ok (t', p, n') -> n <= n'.
Proof.
  unfold prepare_any. intros H. step H. step H. step H. destruct x1 as [[t1 p1] n1]. cbn [rbind] in H. step H. injection H as <- <- <-.
  destruct ((t_growth t =? 0)%N && negb (IsDeleted x0)); [|injection Hx1 as <- <- <-; lia].
  step Hx1. destruct x2 as [t2 n2]. cbn [rbind] in Hx1. step Hx1. injection Hx1 as <- <- <-.
  unfold grow_any, resize_to, drop_deletes_any in Hx3. repeat step Hx3; try discriminate Hx3; try (apply resize_any_mono in Hx3; exact Hx3).
  match goal with H : drop_any _ _ _ _ _ _ = _ |- _ => apply drop_any_mono in H end. injection Hx3 as <- <-. assumption.
Qed.
End Mono.

Section Proof.
Context {K V : Type} (hash : nat -> K -> N) (eqb : nat -> K -> K -> bool) (eeq : nat -> K * V -> K * V -> bool) (E : env) (HE : env_ok E).
Set Default Proof Using "All".
Notation HG := (eo_group E HE).
Notation g := (e_group E).
Notation W := (g_width (e_group E)).
Notation elt := (K * V)%type.
Notation table := (table K V).
Notation winv := (winv E).
Notation winv0 := (winv0 E).
Notation wgood := (wgood E).

Lemma slot_elem (t : table) p e : t_slots t !! p = Some (Some e) -> In e (elems (t_slots t)).
Proof using. intros H. destruct (elems_split _ _ _ H) as (l2 & -> & _). apply in_or_app. right. left. reflexivity. Qed.

(** ** emplace *)
Lemma emplace_any_ok (t : table) k v n : wgood t ->
  (emplace_any hash eqb E n t k v = BadAlloc /\ exists n1, find_key_any hash eqb E n t k = Ok (None, n1) /\ n <= n1) \/
  (exists e i p n', emplace_any hash eqb E n t k v = Ok (t, p, false, n') /\ t_slots t !! p = Some (Some e) /\ n <= i < n' /\ eqb i k (fst e) = true) \/
  (exists t' p n', emplace_any hash eqb E n t k v = Ok (t', p, true, n') /\ n <= n' /\ winv t' /\ t_slots t' !! p = Some (Some (k, v)) /\
     elems (t_slots t') ≡ₚ (k, v) :: elems (t_slots t)).
Proof.
  intros Hg. unfold emplace_any, find_key_any.
  destruct (find_hash_ok E HE hash eqb t k (hash n k) (S n) Hg) as (r & n1 & Hf & Hle & Hs). rewrite Hf. cbn [rbind].
  destruct r as [p|].
  - right. left. destruct Hs as (e & i & Hp & Hi & He). exists e, i, p, n1. repeat split; try assumption; lia.
  - destruct (insert_any_ok E HE hash eqb t (k, v) (hash n k) n1 Hg) as [Hb|(t1 & p & n2 & t2 & Hpr & Hfi & Ht2 & Hp & Hperm)].
    + left. rewrite Hb. split; [reflexivity|]. exists n1. split; [reflexivity|lia].
    + right. right. pose proof (prepare_any_mono _ _ _ _ _ _ _ _ Hpr). rewrite Hpr. cbn [rbind]. rewrite Hfi. cbn [rbind].
      exists t2, p, n2. split; [reflexivity|]. split; [lia|]. auto.
Qed.

(** ** operator== *)
Definition told (t : table) (x : elt) (n : nat) (r : bool) (n' : nat) : Prop :=
  n <= n' /\ (r = true -> exists e i, In e (elems (t_slots t)) /\ n <= i < n' /\ eeq i e x = true).
Lemma told_le t x n n1 r n' : n <= n1 -> told t x n1 r n' -> told t x n r n'.
Proof. intros Hn [H1 H2]. split; [lia|]. intros Hr. destruct (H2 Hr) as (e & i & H3 & H4 & H5). exists e, i. split; [assumption|]. split; [lia|assumption]. Qed.
Lemma has_match_any_ok (t : table) x o is : winv0 t -> o <= t_cap t ->
  (forall d, In d is -> d < W /\ exists c, t_ctrl t !! (o + d) = Some c /\ (0 <= c)%Z) ->
  forall n, exists r n', has_match_any eeq n t x o is = Ok (r, n') /\ told t x n r n'.
Proof.
  intros Ht Ho. induction is as [|d is IH]; intros Hin n; cbn [has_match_any].
  - exists false, n. split; [reflexivity|]. split; [lia|discriminate].
  - destruct (Hin d (or_introl eq_refl)) as (Hd & c & Hc & H0).
    rewrite probe_at_mod by apply (wfc_cap _ _ _ (w_wfc _ _ Ht)).
    set (p := (o + d) mod S (t_cap t)).
    assert (Hp : p < S (t_cap t)) by (apply Nat.mod_upper_bound; lia).
    assert (Hcp : t_ctrl t !! p = Some c).
    { destruct (byte_cases E HG _ _ o d (w_wfc _ _ Ht) Ho Hd) as [[_ Hb]|(_ & _ & Hb)].
      - fold p in Hb. congruence.
      - rewrite Hb in Hc. injection Hc as <-. unfold kEmpty in H0. lia. }
    assert (Hpc : p < t_cap t).
    { destruct (Nat.eq_dec p (t_cap t)) as [He|]; [|lia]. rewrite He, (wfc_sent _ _ _ (w_wfc _ _ Ht)) in Hcp.
      injection Hcp as <-. unfold kSentinel in H0. lia. }
    destruct (w_full E t p c Ht Hpc Hcp H0) as (e & Hs).
    rewrite (load_some _ _ _ Hs). cbn [rbind of_option].
    destruct (eeq n e x) eqn:Ek.
    + exists true, (S n). split; [reflexivity|]. split; [lia|]. intros _. exists e, n. split; [eapply slot_elem; eassumption|]. split; [lia|assumption].
    + destruct (IH ltac:(intros d' Hd'; apply Hin; right; assumption) (S n)) as (r & n' & Hr & Hf).
      exists r, n'. split; [exact Hr|]. eapply told_le; [|exact Hf]. lia.
Qed.
Lemma has_loop_any_ok (t : table) x h nstar : winv0 t ->
  ~ nempty E (t_ctrl t) (t_cap t) (poffh E (t_cap t) h nstar) ->
  forall fuel j, j <= nstar -> nstar - j < fuel ->
  forall n, exists r n', has_loop_any eeq E fuel n t x h (poffh E (t_cap t) h j) (j * W) = Ok (r, n') /\ told t x n r n'.
Proof.
  intros Ht Hns. pose proof (w_wfc _ _ Ht) as Hwf.
  induction fuel as [|f IH]; intros j Hj Hf n; [lia|]. cbn [has_loop_any].
  set (o := poffh E (t_cap t) h j) in *. assert (Ho : o <= t_cap t) by apply poffh_le.
  destruct (window_ok E HG _ _ _ Hwf Ho) as (w & Hw & Hl & Hv & Hb). rewrite Hw. cbn [rbind].
  destruct (has_match_any_ok t x o (g_match g w (H2 h)) Ht Ho) with (n := n) as (r & n1 & Hr & Hfd).
  { intros d Hd. destruct (gok_match_sound _ HG w _ d Hl Hv (H2_range _) Hd) as (c & Hc & H0).
    assert (Hdl : d < W) by (apply lookup_lt_Some in Hc; lia). split; [assumption|].
    exists c. rewrite <- Hb by assumption. split; assumption. }
  rewrite Hr. cbn [rbind]. destruct r; [eauto|].
  destruct (g_any_empty g w) eqn:Hae; [eauto|].
  unfold o. rewrite (probe_next_off E _ _ _ (wfc_cap _ _ _ Hwf)).
  destruct (Nat.eq_dec j nstar) as [->|].
  - exfalso. apply Hns. apply (any_empty_nempty E HG _ _ _ _ Hwf Ho Hw). assumption.
  - destruct (IH (S j) ltac:(lia) ltac:(lia) n1) as (r' & n' & Hr' & Hf'). exists r', n'. split; [exact Hr'|].
    eapply told_le; [|exact Hf']. apply Hfd.
Qed.
Lemma has_element_any_ok (t : table) x n : wgood t -> exists r n', has_element_any hash eeq E n t x = Ok (r, n') /\ told t x n r n'.
Proof.
  intros [->|Ht]; unfold has_element_any; set (h := hash n (fst x)).
  - exists false, (S n). split; [|split; [lia|discriminate]]. cbn [t_cap empty_table has_loop_any t_ctrl].
    destruct (empty_window E HE h) as (-> & w & Hw & Hl & Hv & H0 & Hd).
    change (kEmpty :: replicate 14 kEmpty) with (replicate 15 kEmpty) in *.
    rewrite Hw. cbn [rbind].
    assert (Hm : g_match g w (H2 h) = []).
    { destruct (g_match g w (H2 h)) as [|d l] eqn:Em; [reflexivity|]. exfalso.
      destruct (gok_match_sound _ HG w (H2 h) d Hl Hv (H2_range _)) as (c & Hc & Hp); [rewrite Em; left; reflexivity|].
      assert (Hdl : d < W) by (apply lookup_lt_Some in Hc; lia).
      destruct (Nat.eq_dec d 0) as [->|]; [rewrite H0 in Hc|rewrite Hd in Hc by lia]; injection Hc as <-; unfold kSentinel, kEmpty in Hp; lia. }
    rewrite Hm. cbn [has_match_any rbind].
    assert (Ha : g_any_empty g w = true).
    { apply (gok_any_empty _ HG w Hl Hv). exists 1. apply Hd. pose proof (W_cases E HG). lia. }
    rewrite Ha. reflexivity.
  - pose proof (wv_0 _ _ Ht) as Ht0. pose proof (w_wfc _ _ Ht0) as Hwf. pose proof (wfc_cap _ _ _ Hwf) as Hcap.
    assert (Hex : exists nstar, nstar <= t_cap t /\ ~ nempty E (t_ctrl t) (t_cap t) (poffh E (t_cap t) h nstar)).
    { destruct (w_has_empty E HE t Ht) as [Hs|(i & Hi & He)].
      - exists 0. split; [lia|]. intros [H _]. lia.
      - destruct (cover_ex E HG (t_cap t) (probe_start h (t_cap t)) i Hcap) as (m & Hm & (d & Hd & HdM & Hmod) & _).
        + rewrite (poffh_0 E) by assumption. apply poffh_le.
        + lia.
        + exists m. split; [assumption|]. intros [_ Hne]. apply (Hne d Hd). unfold poffh. rewrite Hmod. assumption. }
    destruct Hex as (ns & Hns & Hnn). rewrite (poffh_0 E _ _ Hcap).
    destruct (has_loop_any_ok t x h ns Ht0 Hnn (S (t_cap t)) 0 ltac:(lia) ltac:(lia) (S n)) as (r & n' & Hr & Hf).
    exists r, n'. split; [exact Hr|]. eapply told_le; [|exact Hf]. lia.
Qed.
Lemma all_in_any_ok (t : table) l : wgood t -> forall n, exists r n', all_in_any hash eeq E n l t = Ok (r, n') /\ n <= n' /\
  (r = true -> forall x, In x l -> exists e i, In e (elems (t_slots t)) /\ n <= i < n' /\ eeq i e x = true).
Proof.
  intros Hg. induction l as [|x l IH]; intros n; cbn [all_in_any].
  - exists true, n. split; [reflexivity|]. split; [lia|]. intros _ x [].
  - destruct (has_element_any_ok t x n Hg) as (r & n1 & Hr & Hle & Ht). rewrite Hr. cbn [rbind]. destruct r.
    + destruct (IH n1) as (r' & n' & Hr' & Hle' & Ht'). exists r', n'. split; [exact Hr'|]. split; [lia|].
      intros Htr y [<-|Hy].
      * destruct (Ht eq_refl) as (e & i & H1 & H2 & H3). exists e, i. split; [assumption|]. split; [lia|assumption].
      * destruct (Ht' Htr y Hy) as (e & i & H1 & H2 & H3). exists e, i. split; [assumption|]. split; [lia|assumption].
    + exists false, n1. split; [reflexivity|]. split; [assumption|]. discriminate.
Qed.

(** ** Traversals that erase *)
Lemma next_any (t : table) i : winv t -> i < t_cap t ->
  exists j, next_it E t i = Ok j /\ i < j <= t_cap t /\ (j = t_cap t \/ exists e, t_slots t !! j = Some (Some e)) /\
    elems (drop (S i) (t_slots t)) = elems (drop j (t_slots t)) /\ (forall x, i < x < j -> t_slots t !! x = Some None).
Proof.
  intros Ht Hi. pose proof (w_slen _ _ (wv_0 _ _ Ht)) as Hsl. unfold next_it.
  destruct (w_skip E HE hash eqb t Ht (S (S (t_cap t))) (S i) ltac:(lia) ltac:(lia)) as (j & Hj & Hij & Hjs & Hjb).
  exists j. split; [exact Hj|]. split; [lia|]. split; [assumption|]. split; [|intros x Hx; apply Hjb; lia].
  rewrite (elems_drop_none (t_slots t) (j - S i) (S i)); [f_equal; f_equal; lia|lia|]. intros x Hx. apply Hjb. lia.
Qed.
Lemma begin_any (t : table) : winv t ->
  exists i, begin_it E t = Ok i /\ i <= t_cap t /\ (i = t_cap t \/ exists e, t_slots t !! i = Some (Some e)) /\
    elems (drop i (t_slots t)) = elems (t_slots t) /\ elems (take i (t_slots t)) = [].
Proof.
  intros Ht. pose proof (w_slen _ _ (wv_0 _ _ Ht)) as Hsl. unfold begin_it.
  destruct (w_skip E HE hash eqb t Ht (S (S (t_cap t))) 0 ltac:(lia) ltac:(lia)) as (j & Hj & Hij & Hjs & Hjb).
  exists j. split; [exact Hj|]. split; [lia|]. split; [assumption|]. split.
  - rewrite <- (drop_0 (t_slots t)) at 2. symmetry. apply (elems_drop_none (t_slots t) j 0); [lia|]. intros x Hx. apply Hjb. lia.
  - pose proof (elems_take_none E HE hash eqb (t_slots t) 0 j) as H0. cbn [Nat.add] in H0. rewrite H0; [reflexivity|lia|]. intros x Hx. apply Hjb. lia.
Qed.
Lemma take_next (slots : list (option elt)) i j s : i < j -> j <= length slots -> slots !! i = Some s ->
  (forall x, i < x < j -> slots !! x = Some None) ->
  elems (take j slots) = elems (take i slots) ++ match s with Some e => [e] | None => [] end.
Proof.
  intros Hij Hj Hi Hb. replace j with (S i + (j - S i)) by lia. rewrite (elems_take_none E HE hash eqb); [|lia|intros x Hx; apply Hb; lia].
  rewrite (take_S_r _ _ _ Hi), elems_app. destruct s; reflexivity.
Qed.
Lemma erase_if_any_ok p : forall fuel j i (t : table), winv t -> i <= t_cap t -> t_cap t - i < fuel ->
  (i = t_cap t \/ exists e, t_slots t !! i = Some (Some e)) ->
  exists t', erase_if_any E fuel p j t i = Ok t' /\ winv t' /\
    elems (t_slots t') = elems (take i (t_slots t)) ++ left_by p j (elems (drop i (t_slots t))).
Proof.
  induction fuel as [|f IH]; intros j i t Ht Hi Hf Hst; [lia|]. cbn [erase_if_any].
  pose proof (w_slen _ _ (wv_0 _ _ Ht)) as Hsl.
  destruct (Nat.eqb_spec i (t_cap t)) as [->|Hne].
  - exists t. rewrite drop_ge, take_ge by lia. split; [reflexivity|]. split; [assumption|]. cbn. rewrite app_nil_r. reflexivity.
  - destruct Hst as [?|(e & He)]; [congruence|].
    unfold deref. rewrite (load_some _ _ _ He). cbn [rbind of_option].
    destruct (next_any t i Ht ltac:(lia)) as (i' & Hj & Hij & Hjs & Hel & Hbet). rewrite Hj. cbn [rbind].
    rewrite (drop_cons _ _ _ He), elems_cons_some, Hel. cbn [left_by]. destruct (p j e) eqn:Hpe.
    + destruct (w_erase E HE hash eqb t i e Ht He) as (t1 & Her & Ht1 & Hsl1). rewrite Her. cbn [rbind].
      assert (Hc1 : t_cap t1 = t_cap t) by (rewrite <- (w_slen _ _ (wv_0 _ _ Ht1)), Hsl1, insert_length; exact Hsl).
      destruct (IH (S j) i' t1 Ht1 ltac:(lia) ltac:(lia)) as (t2 & Hr & Ht2 & Hel2).
      { destruct Hjs as [->|(e' & He')]; [left; congruence|right; exists e'].
        rewrite Hsl1, list_lookup_insert_ne by lia. assumption. }
      exists t2. split; [exact Hr|]. split; [assumption|]. rewrite Hel2, Hsl1, drop_insert_gt by lia. cbn [app]. f_equal.
      rewrite (take_next (<[i := None]> (t_slots t)) i i' None).
      * rewrite take_insert, app_nil_r by lia. reflexivity.
      * lia.
      * rewrite insert_length. lia.
      * apply list_lookup_insert. lia.
      * intros x Hx. rewrite list_lookup_insert_ne by lia. apply Hbet. assumption.
    + cbn [rbind]. destruct (IH (S j) i' t Ht ltac:(lia) ltac:(lia) Hjs) as (t2 & Hr & Ht2 & Hel2).
      exists t2. split; [exact Hr|]. split; [assumption|].
      rewrite Hel2, (take_next (t_slots t) i i' (Some e)) by (try assumption; lia). rewrite <- app_assoc. reflexivity.
Qed.

(** ** merge *)
Lemma merge_loop_any_ok : forall fuel i n (dst src : table), wgood dst -> winv src -> i <= t_cap src -> t_cap src - i < fuel ->
  (i = t_cap src \/ exists e, t_slots src !! i = Some (Some e)) ->
  exists dst' src' b n' gone kept, merge_loop_any hash eqb E fuel n dst src i = Ok (dst', src', b, n') /\ n <= n' /\ wgood dst' /\ winv src' /\
    parted (elems (drop i (t_slots src))) gone kept /\
    elems (t_slots dst') ≡ₚ gone ++ elems (t_slots dst) /\
    elems (t_slots src') = elems (take i (t_slots src)) ++ kept /\
    (b = false -> forall e, In e kept -> exists x m, In x (elems (t_slots dst')) /\ n <= m < n' /\ eqb m (fst e) (fst x) = true).
Proof.
  induction fuel as [|f IH]; intros i n dst src Hg Ht Hi Hf Hst; [lia|]. cbn [merge_loop_any].
  pose proof (w_slen _ _ (wv_0 _ _ Ht)) as Hsl.
  destruct (Nat.eqb_spec i (t_cap src)) as [->|Hne].
  - exists dst, src, false, n, [], []. split; [reflexivity|]. split; [lia|]. split; [assumption|]. split; [assumption|].
    rewrite drop_ge, take_ge by lia. split; [constructor|]. split; [reflexivity|]. split; [rewrite app_nil_r; reflexivity|]. intros _ e [].
  - destruct Hst as [?|(e & He)]; [congruence|].
    unfold deref. rewrite (load_some _ _ _ He). cbn [rbind of_option].
    destruct (next_any src i Ht ltac:(lia)) as (j0 & Hj0 & Hij0 & Hjs0 & Hel0 & Hbet0).
    assert (Hdr0 : elems (drop i (t_slots src)) = e :: elems (drop j0 (t_slots src))).
    { rewrite (drop_cons _ _ _ He), elems_cons_some, Hel0. reflexivity. }
    destruct (emplace_any_ok dst (fst e) (snd e) n Hg) as [(Hb & n1 & Hfk & Hn1)|[(y & m & p & n1 & Hem & Hp & Hm & Hk)|(dst1 & p & n1 & Hem & Hn1 & Ht1 & Hp & Hperm)]].
    + rewrite Hb, Hfk. cbn [rbind]. exists dst, src, true, n1, [], (elems (drop i (t_slots src))). split; [reflexivity|]. split; [assumption|]. split; [assumption|]. split; [assumption|].
      split; [|split; [reflexivity|split; [|discriminate]]].
      * generalize (elems (drop i (t_slots src))) as l. induction l; constructor; assumption.
      * rewrite <- elems_app, take_drop. reflexivity.
    + rewrite Hem. cbn [rbind]. rewrite Hj0. cbn [rbind].
      destruct (IH j0 n1 dst src Hg Ht ltac:(lia) ltac:(lia) Hjs0) as (dst' & src' & b & n' & gn & kp & Hr & Hle & Hg' & Ht' & P1 & P2 & P3 & P4).
      exists dst', src', b, n', gn, (e :: kp). split; [exact Hr|]. split; [lia|]. split; [assumption|]. split; [assumption|].
      split; [rewrite Hdr0; constructor; assumption|]. split; [assumption|].
      split; [rewrite P3, (take_next (t_slots src) i j0 (Some e)) by (try assumption; lia); rewrite <- app_assoc; reflexivity|].
      intros Hb x [<-|Hx].
      * exists y, m. split; [|split; [lia|assumption]]. eapply Permutation_in; [symmetry; exact P2|]. apply in_or_app. right. eapply slot_elem; eassumption.
      * destruct (P4 Hb x Hx) as (z & q & H1 & H2 & H3). exists z, q. split; [assumption|]. split; [lia|assumption].
    + rewrite Hem. destruct (w_erase E HE hash eqb src i e Ht He) as (s1 & Her & Hts1 & Hsl1). rewrite Her. cbn [rbind].
      assert (Hc1 : t_cap s1 = t_cap src) by (rewrite <- (w_slen _ _ (wv_0 _ _ Hts1)), Hsl1, insert_length; exact Hsl).
      destruct (next_any s1 i Hts1 ltac:(lia)) as (j & Hj & Hij & Hjs & Hel & Hbet). rewrite Hj. cbn [rbind].
      assert (Hdj : elems (drop j (t_slots s1)) = elems (drop j0 (t_slots src))).
      { rewrite <- Hel, Hsl1, drop_insert_gt by lia. exact Hel0. }
      destruct (IH j n1 dst1 s1 (or_intror Ht1) Hts1 ltac:(lia) ltac:(lia) Hjs) as (dst' & src' & b & n' & gn & kp & Hr & Hle & Hg' & Ht' & P1 & P2 & P3 & P4).
      rewrite <- surjective_pairing in Hperm. rewrite Hdj in P1.
      exists dst', src', b, n', (e :: gn), kp. split; [exact Hr|]. split; [lia|]. split; [assumption|]. split; [assumption|].
      split; [rewrite Hdr0; constructor; assumption|].
      split; [rewrite P2, Hperm; symmetry; apply Permutation_middle|].
      split.
      { rewrite P3, (take_next (t_slots s1) i j None).
        - rewrite Hsl1, take_insert, app_nil_r by lia. reflexivity.
        - lia.
        - rewrite Hsl1, insert_length. lia.
        - rewrite Hsl1. apply list_lookup_insert. lia.
        - assumption. }
      intros Hb x Hx. destruct (P4 Hb x Hx) as (z & q & H1 & H2 & H3). exists z, q. split; [assumption|]. split; [lia|assumption].
Qed.
Lemma merge_any_ok (dst src : table) n : wgood dst -> wgood src ->
  exists dst' src' b n' gone kept, merge_any hash eqb E n dst src = Ok (dst', src', b, n') /\ wgood dst' /\ wgood src' /\
    parted (elems (t_slots src)) gone kept /\
    elems (t_slots dst') ≡ₚ gone ++ elems (t_slots dst) /\ elems (t_slots src') = kept /\
    (b = false -> forall e, In e kept -> exists x m, In x (elems (t_slots dst')) /\ n <= m < n' /\ eqb m (fst e) (fst x) = true).
Proof.
  intros Hd Hs. unfold merge_any. destruct Hs as [->|Ht].
  - exists dst, empty_table, false, n, [], []. split; [reflexivity|]. split; [assumption|]. split; [left; reflexivity|].
    split; [constructor|]. split; [reflexivity|]. split; [reflexivity|]. intros _ e [].
  - destruct (begin_any src Ht) as (i & Hi & Hic & His & Hdr & Htk). rewrite Hi. cbn [rbind].
    destruct (merge_loop_any_ok (S (t_cap src)) i n dst src Hd Ht Hic ltac:(lia) His) as (dst' & src' & b & n' & gn & kp & Hr & _ & Hg' & Ht' & P1 & P2 & P3 & P4).
    exists dst', src', b, n', gn, kp. rewrite Htk in P3. rewrite Hdr in P1. split; [assumption|]. split; [assumption|]. split; [right; assumption|]. auto.
Qed.
End Proof.
