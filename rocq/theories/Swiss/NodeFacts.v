(** Node containers: from what calls do to pointers, to the contents of the maps and to the addresses of elements. *)
From stdpp Require Import list.
From Coq Require Import Arith NArith ZArith Lia ZifyBool ZifyNat.
From Verif.Common Require Import Res Word WordFacts.
From Verif.Swiss Require Import Group GroupSpec Model Probe Inv TableInv Resize Ops MapSpec History Reserve Multi MultiSpec MultiProof MultiHistory.
From Verif.Swiss Require Import Node NodeSpec NodeProof.
Local Open Scope nat_scope.
Local Open Scope res_scope.
Local Arguments cnt : simpl never.
Local Arguments elems : simpl never.

Section Contents.
Context {K V : Type} (hash : K -> N) (eqb : K -> K -> bool) (eeq : K * V -> K * V -> bool).
Context (HK : KeyOK hash eqb).
Notation elt := (K * V)%type.
Notation ptr := (K * nat)%type.
Notation heap := (list (cell elt)).
Implicit Types (H : heap) (m l : list ptr) (ms : list (list ptr)) (ns : list (option ptr)) (c : list elt) (cs : list (list elt)).
Set Default Proof Using "HK".

Lemma upd_upd_same {A} (l : list A) i x y : upd (upd l i x) i y = upd l i y.
Proof using. clear. revert i. induction l as [|a l IH]; intros [|i]; cbn; try reflexivity. f_equal. apply IH. Qed.
Lemma NoDup_map_inj {A B} (f : A -> B) (l : list A) x y : NoDup (map f l) -> In x l -> In y l -> f x = f y -> x = y.
Proof using.
  clear. induction l as [|z l IH]; [intros _ []|]. cbn. rewrite NoDup_cons. intros [Hz Hn] [->|Hx] [->|Hy] He; auto; exfalso; apply Hz, elem_of_list_In.
  - rewrite He. apply in_map. assumption.
  - rewrite <- He. apply in_map. assumption.
Qed.
(* the containers a call names exist *)
Definition nop_ok_len (a : nat) (o : nop K V) : Prop :=
  match o with NOp (MOne i _) | NArgs i _ _ => i < a | _ => True end.
Definition shown H ms cs : Prop := Forall2 (Forall2 (shows H)) ms cs.
Definition nshown H ns (cns : list (option elt)) : Prop := Forall2 (option_Forall2 (shows H)) ns cns.

Lemma shows_keep H H' m c : Forall2 (shows H) m c -> (forall x, In x m -> H' !! snd x = H !! snd x) -> Forall2 (shows H') m c.
Proof using.
  clear. induction 1 as [|x e m c [H1 H2] _ IH]; intros Hk; constructor.
  - split; [assumption|]. rewrite Hk by (left; reflexivity). assumption.
  - apply IH. intros y Hy. apply Hk. right. assumption.
Qed.
Lemma shown_keep H H' ms cs : shown H ms cs -> (forall x, In x (concat ms) -> H' !! snd x = H !! snd x) -> shown H' ms cs.
Proof using.
  clear. induction 1 as [|m c ms cs Hm _ IH]; intros Hk; constructor.
  - eapply shows_keep; [exact Hm|]. intros x Hx. apply Hk. cbn. apply in_or_app. auto.
  - apply IH. intros y Hy. apply Hk. cbn. apply in_or_app. auto.
Qed.
Lemma nshown_keep H H' ns cns : nshown H ns cns -> (forall x, In x (elems ns) -> H' !! snd x = H !! snd x) -> nshown H' ns cns.
Proof using.
  clear. induction 1 as [|n c ns cs Hm _ IH]; intros Hk; constructor.
  - destruct Hm as [x e [H1 H2]|]; constructor. split; [assumption|]. rewrite Hk by (left; reflexivity). assumption.
  - apply IH. intros y Hy. apply Hk. destruct n; [rewrite elems_cons_some; right|]; assumption.
Qed.
Lemma shown_get H ms cs i : shown H ms cs -> Forall2 (shows H) (mget ms i) (mget cs i).
Proof using. clear. intros HF. revert i. unfold mget. induction HF as [|m c ms cs Hm _ IH]; intros [|i]; cbn; try constructor; auto. Qed.
Lemma nshown_get H ns cns i : nshown H ns cns -> option_Forall2 (shows H) (nget ns i) (nget cns i).
Proof using. clear. intros HF. revert i. unfold nget. induction HF as [|m c ms cs Hm _ IH]; intros [|i]; cbn; try constructor; auto. Qed.
Lemma F2_upd {A B} (R : A -> B -> Prop) la lb i a b : Forall2 R la lb -> R a b -> Forall2 R (upd la i a) (upd lb i b).
Proof using. clear. intros HF Hab. revert i. induction HF as [|x y la lb Hxy HF IH]; intros [|i]; cbn; constructor; auto. Qed.
Lemma shows_find H m c k : Forall2 (shows H) m c -> option_Forall2 (shows H) (s_find eqb m k) (s_find eqb c k).
Proof using.
  clear. induction 1 as [|x e m c [H1 H2] _ IH]; cbn; [constructor|]. rewrite H1. destruct (eqb k (fst x)); [|assumption]. constructor. split; assumption.
Qed.
Lemma shows_filter H (p : ptr -> bool) (q : elt -> bool) m c : Forall2 (shows H) m c -> (forall x e, In x m -> shows H x e -> p x = q e) ->
  Forall2 (shows H) (List.filter p m) (List.filter q c).
Proof using.
  clear. induction 1 as [|x e m c Hx _ IH]; intros Hpq; cbn; [constructor|]. rewrite (Hpq x e (or_introl eq_refl) Hx).
  assert (Forall2 (shows H) (List.filter p m) (List.filter q c)) by (apply IH; intros y f Hy; apply Hpq; right; assumption).
  destruct (q e); [constructor|]; assumption.
Qed.
Lemma shows_has_key H m c x e : Forall2 (shows H) m c -> shows H x e -> has_key eqb m x = has_key eqb c e.
Proof using.
  clear. intros HF [Hk _]. unfold has_key. rewrite Hk. pose proof (shows_find H m c (fst x) HF) as Hf. destruct Hf; reflexivity.
Qed.
Lemma shows_fun H x e e' : shows H x e -> shows H x e' -> e = e'.
Proof using. clear. intros [_ H1] [_ H2]. congruence. Qed.
Lemma leads_shows H x y e : leads H x y -> shows H x e -> strip y = e.
Proof using. clear. intros (v & Hv & ->) [H1 H2]. rewrite Hv in H2. injection H2 as <-. reflexivity. Qed.
Lemma leads_shows_all H l ys c : Forall2 (leads H) l ys -> Forall2 (shows H) l c -> map strip ys = c.
Proof using.
  clear. intros HL. revert c. induction HL as [|x y l ys Hxy _ IH]; intros c HS; inversion HS as [|? e ? c' He HS']; subst; cbn; [reflexivity|].
  f_equal; [eapply leads_shows; eassumption|auto].
Qed.
Lemma leads_perm H l ys m c : l ≡ₚ m -> Forall2 (leads H) l ys -> Forall2 (shows H) m c -> map strip ys ≡ₚ c.
Proof using.
  clear. intros Hp HL HS. destruct (Permutation_Forall2 (symmetry Hp) HS) as (c' & Hc & HS'). rewrite (leads_shows_all H l ys c' HL HS'). symmetry. assumption.
Qed.
Lemma shows_length H m c : Forall2 (shows H) m c -> length m = length c.
Proof using. clear. apply Forall2_length. Qed.
Lemma shows_on H (p : elt -> bool) x e : shows H x e -> on_node H p x = p e.
Proof using. clear. intros [_ He]. unfold on_node, at_ptr. rewrite He. reflexivity. Qed.

(** pointers still owned were not touched by the deletions *)
Lemma freed_keep P H D H' x : freed H D H' -> heap_ok P H' -> In x P -> H' !! snd x = H !! snd x.
Proof using.
  clear. intros (_ & F2 & F3) HO Hx. apply F3. intros Hin. apply F2 in Hin. destruct (ho_live _ _ HO x Hx) as [v Hv]. congruence.
Qed.
Lemma one_freed_keep P H a H' x : H' = <[a := Freed]> H -> heap_ok P H' -> In x P -> H' !! snd x = H !! snd x.
Proof using.
  clear. intros -> HO Hx. destruct (ho_live _ _ HO x Hx) as [v Hv]. apply list_lookup_insert_ne. intros ->.
  pose proof (lookup_lt_Some _ _ _ Hv) as Hl. rewrite insert_length in Hl. rewrite list_lookup_insert in Hv by assumption. discriminate.
Qed.
Lemma app_keep P H ce x : heap_ok P H -> In x P -> (H ++ [ce]) !! snd x = H !! snd x.
Proof using. clear. intros HO Hx. apply lookup_app_l. eapply heap_ok_addr; eassumption. Qed.
Lemma s_update_shows H m c k x v : distinct eqb m -> s_find eqb m k = Some x -> Forall2 (shows H) m c -> NoDup (map snd m) -> snd x < length H ->
  Forall2 (shows (<[snd x := Live (fst x, v)]> H)) m (s_update eqb c k v).
Proof.
  intros Hd Hf HF Hnd Hlt. revert Hd Hf Hnd. induction HF as [|y e m c [H1 H2] HF IH]; cbn [s_find s_update map distinct]; [discriminate|].
  intros [Hy Hd] Hf Hnd. apply NoDup_cons in Hnd. destruct Hnd as [Hni Hnd]. rewrite H1.
  destruct (eqb k (fst y)) eqn:Ek.
  - injection Hf as <-. constructor; [split; [reflexivity|]; apply list_lookup_insert; assumption|].
    assert (HF' : Forall2 (shows (<[snd y := Live (fst y, v)]> H)) m c).
    { eapply shows_keep; [exact HF|]. intros z Hz. apply list_lookup_insert_ne. intros Heq. apply Hni. rewrite Heq. apply elem_of_list_In, in_map. assumption. }
    clear IH HF. revert HF' Hy. generalize (<[snd y := Live (fst y, v)]> H) as H'. intros H' HF' Hy. clear Hni Hnd Hd.
    induction HF' as [|z f m c [G1 G2] _ IH]; cbn; constructor.
    + assert (Hkz : eqb k (fst f) = false).
      { rewrite G1. destruct (eqb k (fst z)) eqn:Ez; [|reflexivity]. rewrite (ko_sym _ _ HK) in Ek.
        rewrite <- (Hy z (or_introl eq_refl)). symmetry. apply (ko_trans _ _ HK _ _ _ Ek Ez). }
      rewrite Hkz. split; assumption.
    + apply IH. intros w Hw. apply Hy. right. assumption.
  - constructor; [|apply IH; assumption]. split; [assumption|]. rewrite list_lookup_insert_ne; [assumption|].
    intros Heq. apply Hni. rewrite <- Heq. apply elem_of_list_In, in_map. apply (s_find_some eqb m k). assumption.
Qed.

Lemma owned_map ms ns L i x : In x (mget ms i) -> In x (owned ms ns L).
Proof using.
  clear. intros Hx. unfold owned. apply in_or_app. left. apply in_concat. exists (mget ms i). split; [|assumption].
  unfold mget in *. destruct (nth_in_or_default i ms []) as [Hin|Heq]; [assumption|]. rewrite Heq in Hx. contradiction.
Qed.
Lemma owned_handle ms ns L n x : nget ns n = Some x -> In x (owned ms ns L).
Proof using.
  clear. intros Hx. unfold owned. apply in_or_app. right. apply in_or_app. left. apply elems_in. exists n. unfold nget in Hx.
  rewrite nth_lookup in Hx. destruct (ns !! n) as [o|]; cbn in Hx; [congruence|discriminate].
Qed.
Lemma nget_elems ns n (x : ptr) : nget ns n = Some x -> In x (elems ns).
Proof using.
  clear. unfold nget. revert n. induction ns as [|o ns IH]; intros [|n] Hn; cbn in *; try discriminate.
  - subst o. left. reflexivity.
  - destruct o; [right|]; eauto.
Qed.
Lemma in_owned_concat ms ns L x : In x (concat ms) -> In x (owned ms ns L).
Proof using. intros Hx. unfold owned. apply in_or_app. auto. Qed.
Lemma in_owned_elems ms ns L x : In x (elems ns) -> In x (owned ms ns L).
Proof using. intros Hx. unfold owned. apply in_or_app. right. apply in_or_app. auto. Qed.
Lemma nodup_map ms ns L H i : heap_ok (owned ms ns L) H -> NoDup (map snd (mget ms i)).
Proof using.
  clear. intros HO. pose proof (ho_nodup _ _ HO) as Hnd. destruct (decide (i < length ms)) as [Hi|Hi].
  - rewrite (owned_get ms ns L i Hi), map_app in Hnd. apply NoDup_app in Hnd. apply Hnd.
  - unfold mget. rewrite nth_overflow by lia. constructor.
Qed.

Lemma p_one_contents m H o r m' H' c : distinct eqb m -> NoDup (map snd m) -> (forall x, In x m -> snd x < length H) -> Forall2 (shows H) m c ->
  p_one eqb m H o r m' H' ->
  (match o with OErase _ | OClear => forall x, In x m' -> H' !! snd x = H !! snd x | _ => True end) ->
  exists c', Forall2 (shows H') m' c' /\ s_step eqb c o (plain_out r) c'.
Proof.
  intros Hd Hnd Hlt HF Hp Hkeep. pose proof (shows_find H m c) as Hfind.
  assert (Hnew : forall k v, Forall2 (shows (H ++ [Live (k, v)])) ((k, length H) :: m) ((k, v) :: c)).
  { intros k v. constructor; [split; [reflexivity|]; cbn [snd]; rewrite lookup_app_r by lia; rewrite Nat.sub_diag; reflexivity|].
    eapply shows_keep; [exact HF|]. intros x Hx. apply lookup_app_l. auto. }
  destruct o as [k v|k v|k|k| |n|n| |]; cbn [p_one s_step] in Hp |- *.
  - specialize (Hfind k HF). destruct Hfind as [x e Hxe|].
    + destruct Hp as ((y & Hy & ->) & -> & ->). exists c. split; [assumption|]. cbn [plain_out]. rewrite (leads_shows _ _ _ _ Hy Hxe). auto.
    + destruct Hp as [(-> & -> & ->)|(-> & -> & ->)]; [exists ((k, v) :: c)|exists c]; (split; [auto|]); [left|right]; auto.
  - pose proof (Hfind k HF) as Hfk. destruct (s_find eqb m k) as [x|] eqn:Hfm; inversion Hfk as [? e Hxe Heq1 Heq2|]; subst.
    + destruct Hp as (-> & -> & ->). exists (s_update eqb c k v). split.
      * apply s_update_shows; try assumption. apply Hlt. apply (s_find_some eqb m k). assumption.
      * split; [|reflexivity]. cbn [plain_out]. unfold strip. cbn [fst snd]. destruct Hxe as [-> _]. reflexivity.
    + destruct Hp as [(-> & -> & ->)|(-> & -> & ->)]; [exists ((k, v) :: c)|exists c]; (split; [auto|]); [left|right]; auto.
  - specialize (Hfind k HF). destruct Hp as (Hr & -> & ->). exists c. split; [assumption|]. split; [|reflexivity].
    destruct Hfind as [x e Hxe|]; [|subst r; reflexivity]. destruct Hr as (y & Hy & ->). cbn [plain_out option_map]. rewrite (leads_shows _ _ _ _ Hy Hxe). reflexivity.
  - specialize (Hfind k HF). destruct Hp as (Hr & ->). exists (s_erase eqb c k). split.
    + eapply shows_keep; [|exact Hkeep]. apply shows_filter; [assumption|]. intros x e _ [Hk _]. rewrite Hk. reflexivity.
    + split; [|reflexivity]. destruct Hfind as [x e Hxe|]; [|destruct Hr as [-> _]; reflexivity]. destruct Hr as ((y & Hy & ->) & _).
      cbn [plain_out option_map]. rewrite (leads_shows _ _ _ _ Hy Hxe). reflexivity.
  - destruct Hp as (-> & -> & _). exists []. split; [constructor|auto].
  - destruct Hp as (Hr & -> & ->). exists c. split; [assumption|]. split; [|reflexivity]. destruct Hr as [->| ->]; auto.
  - destruct Hp as (Hr & -> & ->). exists c. split; [assumption|]. split; [|reflexivity]. destruct Hr as [->| ->]; auto.
  - destruct Hp as (-> & -> & ->). exists c. split; [assumption|]. rewrite (shows_length _ _ _ HF). auto.
  - destruct Hp as ((l & ys & Hl & Hys & ->) & -> & ->). exists c. split; [assumption|]. split; [|reflexivity]. exists (map strip ys). split; [reflexivity|].
    eapply leads_perm; eassumption.
Qed.

Lemma p_step_contents ms ns H L o r ms' ns' H' L' cs cns : heap_ok (owned ms ns L) H -> heap_ok (owned ms' ns' L') H' ->
  Forall (distinct eqb) ms -> shown H ms cs -> nshown H ns cns -> p_step eqb eeq (ms, ns, H, L) o r (ms', ns', H', L') ->
  nop_ok_len (length ms) o ->
  exists cs' cns', shown H' ms' cs' /\ nshown H' ns' cns' /\ s_mstep eqb eeq (cs, cns) (flat o) (plain r) (cs', cns').
Proof.
  intros HO HO' Hd HS HN Hp Hlen.
  assert (Hdi : forall i, distinct eqb (mget ms i)).
  { intros i. unfold mget. destruct (nth_in_or_default i ms []) as [Hin|Heq]; [|rewrite Heq; exact I]. rewrite Forall_forall in Hd. apply Hd, elem_of_list_In. assumption. }
  assert (Hgrow : forall ce, shown (H ++ [ce]) ms cs /\ nshown (H ++ [ce]) ns cns).
  { intros ce. split; [eapply shown_keep; [exact HS|]|eapply nshown_keep; [exact HN|]]; intros x Hx; eapply app_keep; try exact HO; [apply in_owned_concat|apply in_owned_elems]; assumption. }
  destruct o as [[i o1|i j|i j|i j|i j|i k n|i n|i j|i p]|i k v]; cbn [flat p_step s_mstep nop_ok_len] in *.
  - destruct Hp as (-> & r0 & m' & -> & Hp & -> & ->).
    assert (Hall : match o1 with OEmplace _ _ | OAssign _ _ => True | _ => forall x, In x (owned (upd ms i m') ns L) -> H' !! snd x = H !! snd x end).
    { destruct o1; cbn [p_one] in Hp; try exact I; try (destruct Hp as (_ & _ & ->); reflexivity).
      - destruct Hp as (Hr & Hm'). intros x Hx. destruct (s_find eqb (mget ms i) k) as [y|]; [|destruct Hr as [_ ->]; reflexivity].
        destruct Hr as [_ Hr]. eapply one_freed_keep; eassumption.
      - destruct Hp as (_ & _ & Hf). intros x Hx. eapply freed_keep; eassumption. }
    destruct (p_one_contents (mget ms i) H o1 r0 m' H' (mget cs i)) as (c' & HF' & Hst); auto.
    + eapply nodup_map; eassumption.
    + intros x Hx. eapply heap_ok_addr; [exact HO|]. eapply owned_map; eassumption.
    + apply shown_get. assumption.
    + destruct o1; auto; intros x Hx; apply Hall, (owned_map _ _ _ i); unfold mget; rewrite nth_upd_eq by assumption; assumption.
    + exists (upd cs i c'), cns.
      assert (Hold : shown H' (upd ms i m') (upd cs i c') /\ nshown H' ns cns).
      { destruct o1; cbn [p_one] in Hp.
        - destruct (s_find eqb (mget ms i) k); [destruct Hp as (_ & -> & ->)|destruct Hp as [(_ & -> & ->)|(_ & -> & ->)]]; (split; [apply F2_upd; auto|auto]); apply Hgrow.
        - destruct (s_find eqb (mget ms i) k) as [x|] eqn:Hf.
          + destruct Hp as (_ & -> & ->). apply (s_find_some eqb (mget ms i) k) in Hf. destruct Hf as [Hin _].
            assert (Hne : forall y, In y (owned (upd ms i []) ns L) -> <[snd x := Live (fst x, v)]> H !! snd y = H !! snd y).
            { intros y Hy. apply list_lookup_insert_ne. intros Heq. pose proof (ho_nodup _ _ HO) as Hnd.
              rewrite (owned_get ms ns L i Hlen), map_app in Hnd. apply NoDup_app in Hnd. destruct Hnd as (_ & Hnd & _).
              apply (Hnd (snd x)); apply elem_of_list_In; [apply in_map; assumption|]. rewrite Heq. apply in_map.
              unfold owned in Hy. exact Hy. }
            split.
            * rewrite <- (upd_upd_same ms i []), <- (upd_upd_same cs i []). apply F2_upd; [|assumption].
              eapply shown_keep; [apply F2_upd; [exact HS|constructor]|]. intros y Hy. apply Hne, in_owned_concat. assumption.
            * eapply nshown_keep; [exact HN|]. intros y Hy. apply Hne, in_owned_elems. assumption.
          + destruct Hp as [(_ & -> & ->)|(_ & -> & ->)]; (split; [apply F2_upd; auto|auto]); apply Hgrow.
        - destruct Hp as (_ & -> & ->). split; [apply F2_upd|]; assumption.
        - split; [|eapply nshown_keep; [exact HN|]; intros x Hx; apply Hall, in_owned_elems; assumption].
          rewrite <- (upd_upd_same ms i []), <- (upd_upd_same cs i []). apply F2_upd; [|assumption].
          eapply shown_keep; [apply F2_upd; [exact HS|constructor]|]. intros y Hy. apply Hall. eapply Permutation_in; [symmetry; apply owned_one; assumption|].
          apply in_or_app. right. apply in_or_app. auto.
        - split; [|eapply nshown_keep; [exact HN|]; intros x Hx; apply Hall, in_owned_elems; assumption].
          rewrite <- (upd_upd_same ms i []), <- (upd_upd_same cs i []). apply F2_upd; [|assumption].
          eapply shown_keep; [apply F2_upd; [exact HS|constructor]|]. intros y Hy. apply Hall. eapply Permutation_in; [symmetry; apply owned_one; assumption|].
          apply in_or_app. right. apply in_or_app. auto.
        - destruct Hp as (_ & -> & ->). split; [apply F2_upd|]; assumption.
        - destruct Hp as (_ & -> & ->). split; [apply F2_upd|]; assumption.
        - destruct Hp as (_ & -> & ->). split; [apply F2_upd|]; assumption.
        - destruct Hp as (_ & -> & ->). split; [apply F2_upd|]; assumption. }
      destruct Hold as [Ho1 Ho2]. split; [assumption|]. split; [assumption|]. exists (plain_out r0), c'. auto.
  - destruct Hp as (-> & -> & [(-> & l' & H1 & -> & Hfr & Hle & Hkp & HF)|(-> & -> & ->)]); [|exists cs, cns; auto].
    exists (upd cs i (mget cs j)), cns.
    assert (Hk : forall x, In x (owned (upd ms i l') ns L) -> H' !! snd x = H1 !! snd x) by (intros x Hx; eapply freed_keep; eassumption).
    split; [|split; [|left; auto]].
    + apply shown_keep with (H := H1); [|intros x Hx; apply Hk, in_owned_concat; assumption].
      apply F2_upd.
      * eapply shown_keep; [exact HS|]. intros x Hx. apply Hkp. eapply heap_ok_addr; [exact HO|]. apply in_owned_concat. assumption.
      * pose proof (shown_get _ _ _ j HS) as HSj. clear -HF HSj. revert HSj. generalize (mget cs j).
        induction HF as [|x x' m l' (G1 & G2 & v & G3 & G4) _ IH]; intros c HSj; inversion HSj as [|? e ? c' [S1 S2] HSj']; subst; constructor; [|auto].
        rewrite G3 in S2. injection S2 as <-. split; [symmetry; assumption|assumption].
    + eapply nshown_keep; [exact HN|]. intros x Hx. rewrite Hk by (apply in_owned_elems; assumption). apply Hkp. eapply heap_ok_addr; [exact HO|]. apply in_owned_elems. assumption.
  - destruct Hp as (-> & -> & -> & Hp). destruct (i =? j).
    + destruct Hp as [-> ->]. exists cs, cns. auto.
    + destruct Hp as [-> Hfr].
      assert (Hk : forall x, In x (owned (upd (upd ms i (mget ms j)) j []) ns L) -> H' !! snd x = H !! snd x) by (intros x Hx; eapply freed_keep; eassumption).
      exists (upd (upd cs i (mget cs j)) j []), cns. split; [|split; [|auto]].
      * eapply shown_keep; [|intros x Hx; apply Hk, in_owned_concat; exact Hx]. apply F2_upd; [|constructor]. apply F2_upd; [assumption|]. apply shown_get. assumption.
      * eapply nshown_keep; [exact HN|]. intros x Hx. apply Hk, in_owned_elems. assumption.
  - destruct Hp as (-> & -> & -> & -> & ->). exists (upd (upd cs i (mget cs j)) j (mget cs i)), cns. split; [|auto].
    apply F2_upd; [apply F2_upd; [assumption|]|]; apply shown_get; assumption.
  - pose proof (shown_get _ _ _ i HS) as HSi. pose proof (shown_get _ _ _ j HS) as HSj.
    destruct Hp as (-> & -> & -> & [(-> & ->)|(-> & mv & rs & Hpm & Hmv & ->)]).
    + eexists _, cns. split; [|split; [assumption|left; split; reflexivity]].
      apply F2_upd; [apply F2_upd; [assumption|apply Forall2_app; [|assumption]]|].
      * apply shows_filter; [assumption|]. intros x e _ Hxe. rewrite (shows_has_key H _ _ _ _ HSi Hxe). reflexivity.
      * apply shows_filter; [assumption|]. intros x e _ Hxe. apply (shows_has_key H); assumption.
    + destruct (Permutation_Forall2 Hpm HSj) as (c2 & Hc2 & HF2). apply Forall2_app_inv_l in HF2. destruct HF2 as (cm & cr & Fm & Fr & ->).
      exists (upd (upd cs i (cm ++ mget cs i)) j cr), cns. split; [|split; [assumption|right; split; [reflexivity|]]].
      * apply F2_upd; [apply F2_upd; [assumption|apply Forall2_app; assumption]|assumption].
      * exists cm, cr. split; [assumption|]. split; [|reflexivity]. intros e He. apply elem_of_list_In, elem_of_list_lookup in He. destruct He as [q Hq].
        destruct (Forall2_lookup_r _ _ _ _ _ Fm Hq) as (x & Hx & Hxe). rewrite <- (shows_has_key H _ _ _ _ HSi Hxe). apply Hmv.
        apply elem_of_list_In, elem_of_list_lookup. eauto.
  - destruct Hp as (-> & (y & -> & Hy) & -> & -> & Hfr). pose proof (shown_get _ _ _ i HS) as HSi. pose proof (shows_find H _ _ k HSi) as Hfk.
    assert (Hk : forall x, In x (owned (upd ms i (s_erase eqb (mget ms i) k)) (upd ns n (s_find eqb (mget ms i) k)) L) -> H' !! snd x = H !! snd x) by (intros x Hx; eapply freed_keep; eassumption).
    exists (upd cs i (s_erase eqb (mget cs i) k)), (upd cns n (s_find eqb (mget cs i) k)). split; [|split; [|split; [|reflexivity]]].
    + eapply shown_keep; [|intros x Hx; apply Hk, in_owned_concat; exact Hx]. apply F2_upd; [assumption|].
      apply shows_filter; [assumption|]. intros x e _ [Hxe _]. rewrite Hxe. reflexivity.
    + eapply nshown_keep; [|intros x Hx; apply Hk, in_owned_elems; exact Hx]. apply F2_upd; assumption.
    + cbn [plain]. f_equal. destruct Hfk as [x e Hxe|]; [|subst y; reflexivity]. destruct Hy as (z & Hz & ->). cbn [option_map]. rewrite (leads_shows _ _ _ _ Hz Hxe). reflexivity.
  - destruct Hp as (-> & -> & Hp). pose proof (nshown_get _ _ _ n HN) as HNn. pose proof (shown_get _ _ _ i HS) as HSi.
    destruct HNn as [x e Hxe|]; [|destruct Hp as (-> & -> & ->); exists cs, cns; auto].
    rewrite <- (shows_has_key H _ _ _ _ HSi Hxe). destruct (has_key eqb (mget ms i) x); [destruct Hp as (-> & -> & ->); exists cs, cns; auto|].
    destruct Hp as [(-> & -> & ->)|(-> & -> & ->)]; [|exists cs, cns; auto].
    exists (upd cs i (e :: mget cs i)), (upd cns n None). split; [apply F2_upd; [assumption|constructor; assumption]|]. split; [apply F2_upd; [assumption|constructor]|]. auto.
  - destruct Hp as (-> & -> & -> & -> & ci & cj & b & F1 & F2 & -> & Hb). exists cs, cns. split; [assumption|]. split; [assumption|]. exists b.
    split; [reflexivity|]. split; [reflexivity|]. rewrite Hb.
    assert (Hun : forall m c c' : list _, Forall2 (shows H) m c -> Forall2 (shows H) m c' -> c = c').
    { clear. intros m c c' H1. revert c'. induction H1 as [|x e m c Hx _ IH]; intros c' H2; inversion H2 as [|? e' ? c2 Hx' H2']; subst; [reflexivity|].
      f_equal; [eapply shows_fun; eassumption|auto]. }
    rewrite (Hun _ _ _ F1 (shown_get _ _ _ i HS)), (Hun _ _ _ F2 (shown_get _ _ _ j HS)). reflexivity.
  - destruct Hp as (-> & seen & ys & -> & Hperm & Hys & -> & -> & Hfr). pose proof (shown_get _ _ _ i HS) as HSi.
    match type of HO' with heap_ok (owned ?a ns L) _ => assert (Hk : forall x, In x (owned a ns L) -> H' !! snd x = H !! snd x) by (intros x Hx; eapply freed_keep; eassumption) end.
    exists (upd cs i (List.filter (fun e => negb (p e)) (mget cs i))), cns. split; [|split].
    + eapply shown_keep; [|intros x Hx; apply Hk, in_owned_concat; exact Hx]. apply F2_upd; [assumption|]. apply shows_filter; [assumption|].
      intros x e _ Hxe. rewrite (shows_on H p x e Hxe). reflexivity.
    + eapply nshown_keep; [exact HN|]. intros x Hx. apply Hk, in_owned_elems. assumption.
    + exists (map strip ys). split; [|split; [|reflexivity]].
      * cbn [plain]. f_equal. eapply shows_length. apply shows_filter; [exact HSi|]. intros x e _ Hxe. apply shows_on. assumption.
      * eapply leads_perm; eassumption.
  - destruct Hp as (-> & Hp). pose proof (shown_get _ _ _ i HS) as HSi. pose proof (shows_find H _ _ k HSi) as Hfk.
    destruct (s_find eqb (mget ms i) k) as [x|] eqn:Hf; inversion Hfk as [? e Hxe Heq1 Heq2|Ha Heq]; subst.
    + destruct Hp as ((y & Hy & ->) & -> & -> & ->). exists cs, cns. split; [apply Hgrow|]. split; [apply Hgrow|]. exists (RInserted false e), (mget cs i).
      cbn [plain plain_out]. rewrite (leads_shows _ _ _ _ Hy Hxe). split; [reflexivity|]. cbn [s_step]. rewrite <- Heq2. split; [auto|].
      unfold mget. rewrite upd_get. reflexivity.
    + destruct Hp as (-> & [(-> & -> & ->)|(-> & -> & ->)]).
      * exists (upd cs i ((k, v) :: mget cs i)), cns. split; [|split; [apply Hgrow|]].
        -- apply F2_upd; [apply Hgrow|]. constructor; [|apply shown_get, Hgrow]. split; [reflexivity|]. cbn [snd]. rewrite lookup_app_r by lia. rewrite Nat.sub_diag. reflexivity.
        -- exists (RInserted true (k, v)), ((k, v) :: mget cs i). split; [reflexivity|]. cbn [s_step]. rewrite <- Heq. split; [left; auto|reflexivity].
      * exists cs, cns. split; [apply Hgrow|]. split; [apply Hgrow|]. exists RThrow, (mget cs i). split; [reflexivity|]. cbn [s_step]. rewrite <- Heq. split; [right; auto|].
        unfold mget. rewrite upd_get. reflexivity.
Qed.
(** ** Where the nodes go *)
Definition at_p ms ns (pl : place) (x : ptr) : Prop := match pl with InMap i => In x (mget ms i) | InHandle n => nget ns n = Some x end.
Lemma at_p_owned ms ns L pl x : at_p ms ns pl x -> In x (owned ms ns L).
Proof using. destruct pl as [i|n]; cbn [at_p]; [apply owned_map|apply owned_handle]. Qed.
Lemma at_upd ms i i' m x : i < length ms -> In x (if i' =? i then m else mget ms i') -> In x (mget (upd ms i m) i').
Proof using.
  clear. intros Hi Hx. destruct (Nat.eqb_spec i' i) as [->|Hne]; unfold mget in *; [rewrite nth_upd_eq by assumption; assumption|]. rewrite nth_upd_ne by congruence. assumption.
Qed.
Lemma at_len ms i x : In x (mget ms i) -> i < length ms.
Proof using. clear. unfold mget. intros Hx. destruct (decide (i < length ms)) as [|Hi]; [assumption|]. rewrite nth_overflow in Hx by lia. destruct Hx. Qed.
(* the indices of a call *)
Definition nop_ok_lens (a b : nat) (o : nop K V) : Prop :=
  match o with
  | NArgs i _ _ | NOp (MOne i _) | NOp (MEraseIf i _) => i < a
  | NOp (MCopy i j) | NOp (MMove i j) | NOp (MSwap i j) | NOp (MEq i j) => i < a /\ j < a
  | NOp (MMerge i j) => i < a /\ j < a /\ i <> j
  | NOp (MExtract i _ n) | NOp (MInsertNode i n) => i < a /\ n < b
  end.

Lemma p_step_goes ms ns H L o r ms' ns' H' L' pl x e : heap_ok (owned ms ns L) H -> heap_ok (owned ms' ns' L') H' ->
  Forall (distinct eqb) ms -> p_step eqb eeq (ms, ns, H, L) o r (ms', ns', H', L') -> nop_ok_lens (length ms) (length ns) o ->
  at_p ms ns pl x -> shows H x e ->
  exists pl', goes eqb o e r pl pl' /\
    match pl' with
    | Some q => at_p ms' ns' q x /\ shows H' x (becomes eqb o e pl)
    | None => H' !! snd x = Some Freed
    end.
Proof.
  intros HO HO' Hd Hp Hlen Hat Hx.
  assert (Hdi : forall i, distinct eqb (mget ms i)).
  { intros i. unfold mget. destruct (nth_in_or_default i ms []) as [Hin|Heq]; [|rewrite Heq; exact I]. rewrite Forall_forall in Hd. apply Hd, elem_of_list_In. assumption. }
  pose proof (at_p_owned _ _ L _ _ Hat) as Hown. pose proof (heap_ok_addr _ _ _ HO Hown) as Haddr.
  destruct Hx as [Hke Hlive].
  (* a node that is not touched *)
  assert (Hsame : forall q, at_p ms' ns' q x -> becomes eqb o e pl = e -> H' !! snd x = H !! snd x -> at_p ms' ns' q x /\ shows H' x (becomes eqb o e pl)).
  { intros q Hq -> Hk. split; [assumption|]. split; [assumption|]. rewrite Hk. assumption. }
  assert (Hfr : forall D q, freed H D H' -> at_p ms' ns' q x -> becomes eqb o e pl = e -> at_p ms' ns' q x /\ shows H' x (becomes eqb o e pl)).
  { intros D q Hf Hq Hb. apply Hsame; [assumption|assumption|]. eapply freed_keep; [exact Hf|exact HO'|]. eapply at_p_owned. exact Hq. }
  destruct o as [[i o1|i j|i j|i j|i j|i k n|i n|i j|i p]|i k v]; cbn [p_step nop_ok_lens] in *.
  - destruct Hp as (-> & r0 & m' & -> & Hp & -> & ->).
    (* calls that keep the elements of the container and the heap *)
    assert (Hid : m' = mget ms i -> H' = H -> exists pl', pl' = Some pl /\ match pl' with
      | Some q => at_p (upd ms i m') ns q x /\ shows H' x e | None => H' !! snd x = Some Freed end).
    { intros -> ->. exists (Some pl). split; [reflexivity|]. split; [|split; assumption]. unfold mget. rewrite upd_get. assumption. }
    assert (Hnew : forall k v, m' = (k, length H) :: mget ms i -> H' = H ++ [Live (k, v)] -> exists pl', pl' = Some pl /\ match pl' with
      | Some q => at_p (upd ms i m') ns q x /\ shows H' x e | None => H' !! snd x = Some Freed end).
    { intros k v -> ->. exists (Some pl). split; [reflexivity|]. split.
      - destruct pl as [i'|n]; cbn [at_p] in *; [|assumption]. apply at_upd; [assumption|]. destruct (Nat.eqb_spec i' i) as [->|]; [right|]; assumption.
      - split; [assumption|]. rewrite lookup_app_l by assumption. assumption. }
    destruct o1 as [k v|k v|k|k| |n|n| |]; cbn [p_one goes becomes] in *.
    + destruct (s_find eqb (mget ms i) k) as [y|]; [destruct Hp as (_ & ? & ?)|destruct Hp as [(_ & ? & ?)|(_ & ? & ?)]]; eauto.
    + assert (Hun : forall i', pl = InMap i' -> i' <> i \/ eqb k (fst e) = false -> (i' =? i) && eqb k (fst e) = false).
      { intros i' _ [Hne|Hne]; [apply Nat.eqb_neq in Hne; rewrite Hne; reflexivity|rewrite Hne; apply andb_false_r]. }
      destruct (s_find eqb (mget ms i) k) as [y|] eqn:Hf.
      * destruct Hp as (_ & -> & ->). exists (Some pl). split; [reflexivity|]. pose proof (s_find_some eqb _ _ _ Hf) as [Hin Hky].
        split; [unfold mget; rewrite upd_get; assumption|].
        destruct (decide (snd y = snd x)) as [Heq|Hne].
        -- assert (Hyx : y = x).
           { pose proof (ho_nodup _ _ HO) as Hnd. eapply (NoDup_map_inj snd (owned ms ns L)); try eassumption. eapply owned_map; eassumption. }
           subst y. destruct pl as [i'|n]; cbn [at_p] in Hat.
           ++ assert (i' = i) as ->.
              { destruct (decide (i' = i)) as [|Hii]; [assumption|exfalso]. pose proof (ho_nodup _ _ HO) as Hnd.
                rewrite (owned_get2 ms ns L i i'), map_app in Hnd by (try apply (at_len _ _ x); auto).
                apply NoDup_app in Hnd. destruct Hnd as (_ & Hnd & _). apply (Hnd (snd x)); apply elem_of_list_In; [apply in_map; assumption|].
                apply in_map, in_or_app. auto. }
              rewrite Nat.eqb_refl, Hke, Hky. cbn [andb]. split; [reflexivity|]. cbn [snd]. apply list_lookup_insert. assumption.
           ++ exfalso. pose proof (ho_nodup _ _ HO) as Hnd. rewrite (owned_get ms ns L i), map_app in Hnd by assumption. apply NoDup_app in Hnd.
              destruct Hnd as (_ & Hnd & _). apply (Hnd (snd x)); apply elem_of_list_In; [apply in_map; assumption|]. apply in_map.
              apply in_or_app. right. apply in_or_app. left. eapply nget_elems. exact Hat.
        -- assert (Hb : match pl with InMap i' => if (i' =? i) && eqb k (fst e) then (fst e, v) else e | InHandle _ => e end = e).
           { destruct pl as [i'|n]; [|reflexivity]. rewrite (Hun i'); [reflexivity|reflexivity|]. cbn [at_p] in Hat.
             destruct (decide (i' = i)) as [->|]; [|auto]. right. destruct (eqb k (fst e)) eqn:Hk; [|reflexivity]. exfalso. apply Hne.
             rewrite Hke in Hk. rewrite (s_find_in hash eqb HK _ _ _ (Hdi i) Hat Hk) in Hf. congruence. }
           rewrite Hb. split; [assumption|]. rewrite list_lookup_insert_ne by congruence. assumption.
      * assert (Hb : match pl with InMap i' => if (i' =? i) && eqb k (fst e) then (fst e, v) else e | InHandle _ => e end = e).
        { destruct pl as [i'|n]; [|reflexivity]. rewrite (Hun i'); [reflexivity|reflexivity|]. cbn [at_p] in Hat.
          destruct (decide (i' = i)) as [->|]; [|auto]. right. rewrite Hke. rewrite s_find_none in Hf. apply Hf. assumption. }
        rewrite Hb. destruct Hp as [(_ & ? & ?)|(_ & ? & ?)]; eauto.
    + destruct Hp as (_ & ? & ?). auto.
    + destruct Hp as (Hr & ->).
      assert (Hf : exists D, freed H D H' /\ (forall y, s_find eqb (mget ms i) k = Some y -> D = [y])).
      { destruct (s_find eqb (mget ms i) k) as [y|] eqn:Hf; [|destruct Hr as [_ ->]; exists []; split; [apply freed_nil|discriminate]].
        destruct Hr as [_ ->]. exists [y]. split; [|intros ? [= <-]; reflexivity]. apply (s_find_some eqb) in Hf. destruct Hf as [Hin _].
        split; [apply insert_length|]. split; intros a Ha; cbn in Ha.
        - destruct Ha as [<-|[]]. apply list_lookup_insert. eapply heap_ok_addr; [exact HO|]. eapply owned_map. eassumption.
        - apply list_lookup_insert_ne. tauto. }
      destruct Hf as (D & Hf & HD).
      destruct pl as [i'|n]; cbn [at_p] in Hat; [|exists (Some (InHandle n)); split; [reflexivity|eapply Hfr; eauto]].
      eexists. split; [reflexivity|]. destruct (Nat.eqb_spec i' i) as [->|Hne]; [destruct (eqb k (fst e)) eqn:Hk|]; cbn [andb].
      * rewrite Hke in Hk. pose proof (s_find_in hash eqb HK _ _ _ (Hdi i) Hat Hk) as Hfx. apply HD in Hfx. subst D. apply Hf. left. reflexivity.
      * eapply Hfr; [exact Hf| |reflexivity]. cbn [at_p]. apply at_upd; [assumption|]. rewrite Nat.eqb_refl. apply filter_In. split; [assumption|]. rewrite <- Hke, Hk. reflexivity.
      * eapply Hfr; [exact Hf| |reflexivity]. cbn [at_p]. apply at_upd; [assumption|]. apply Nat.eqb_neq in Hne. rewrite Hne. assumption.
    + destruct Hp as (_ & -> & Hf). destruct pl as [i'|n]; cbn [at_p] in Hat; [|exists (Some (InHandle n)); split; [reflexivity|eapply Hfr; eauto]].
      eexists. split; [reflexivity|]. destruct (Nat.eqb_spec i' i) as [->|Hne].
      * apply Hf, in_map. assumption.
      * eapply Hfr; [exact Hf| |reflexivity]. cbn [at_p]. apply at_upd; [assumption|]. apply Nat.eqb_neq in Hne. rewrite Hne. assumption.
    + destruct Hp as (_ & ? & ?). auto.
    + destruct Hp as (_ & ? & ?). auto.
    + destruct Hp as (_ & ? & ?). auto.
    + destruct Hp as (_ & ? & ?). auto.
  - cbn [goes becomes] in *. destruct Hlen as [Hi Hj]. destruct Hp as (-> & -> & [(-> & l' & H1 & -> & Hf & Hle & Hkp & HF)|(-> & -> & ->)]).
    + assert (Hk : forall q, at_p (upd ms i l') ns q x -> at_p (upd ms i l') ns q x /\ shows H' x e).
      { intros q Hq. split; [assumption|]. split; [assumption|]. rewrite (freed_keep _ _ _ _ x Hf HO') by (eapply at_p_owned; exact Hq). rewrite Hkp by assumption. assumption. }
      destruct pl as [i'|n]; cbn [at_p] in Hat; [|exists (Some (InHandle n)); split; [reflexivity|apply (Hk (InHandle n)); assumption]].
      eexists. split; [reflexivity|]. rewrite andb_true_r. destruct (Nat.eqb_spec i' i) as [->|Hne].
      * apply Hf, in_map. assumption.
      * apply (Hk (InMap i')). cbn [at_p]. apply at_upd; [assumption|]. apply Nat.eqb_neq in Hne. rewrite Hne. assumption.
    + exists (Some pl). split; [destruct pl; [rewrite andb_false_r|]; reflexivity|]. apply Hsame; auto.
  - cbn [goes becomes] in *. destruct Hlen as [Hi Hj]. destruct Hp as (-> & -> & -> & Hp). destruct (Nat.eqb_spec i j) as [->|Hij].
    + destruct Hp as [-> ->]. exists (Some pl). split; [destruct pl; reflexivity|]. apply Hsame; auto.
    + destruct Hp as [-> Hf]. destruct pl as [i'|n]; cbn [at_p] in Hat; [|exists (Some (InHandle n)); split; [reflexivity|eapply Hfr; eauto]].
      eexists. split; [reflexivity|]. destruct (Nat.eqb_spec i' j) as [->|Hnj]; [|destruct (Nat.eqb_spec i' i) as [->|Hni]].
      * eapply Hfr; [exact Hf| |reflexivity]. cbn [at_p]. apply at_upd; [rewrite upd_len; assumption|]. apply Nat.eqb_neq in Hij. rewrite Hij. apply at_upd; [assumption|]. rewrite Nat.eqb_refl. assumption.
      * apply Hf, in_map. assumption.
      * eapply Hfr; [exact Hf| |reflexivity]. cbn [at_p]. apply Nat.eqb_neq in Hnj, Hni. apply at_upd; [rewrite upd_len; assumption|]. rewrite Hnj. apply at_upd; [assumption|]. rewrite Hni. assumption.
  - cbn [goes becomes] in *. destruct Hlen as [Hi Hj]. destruct Hp as (-> & -> & -> & -> & ->).
    destruct pl as [i'|n]; cbn [at_p] in Hat; [|exists (Some (InHandle n)); split; [reflexivity|apply Hsame; auto]].
    eexists. split; [reflexivity|]. destruct (Nat.eqb_spec i' i) as [->|Hni]; [|destruct (Nat.eqb_spec i' j) as [->|Hnj]]; apply Hsame; try reflexivity; cbn [at_p];
      apply at_upd; rewrite ?upd_len; try assumption.
    + rewrite Nat.eqb_refl. assumption.
    + destruct (Nat.eqb_spec i j) as [->|Hij]; [assumption|]. apply at_upd; [assumption|]. rewrite Nat.eqb_refl. assumption.
    + apply Nat.eqb_neq in Hnj, Hni. rewrite Hnj. apply at_upd; [assumption|]. rewrite Hni. assumption.
  - cbn [goes becomes] in *. destruct Hlen as (Hi & Hj & Hij). destruct Hp as (-> & -> & -> & Hp).
    destruct pl as [i'|n]; cbn [at_p] in Hat; [|exists (Some (InHandle n)); split; [reflexivity|apply Hsame; auto]].
    assert (Hmv : exists A B, mget ms j ≡ₚ A ++ B /\ ms' = upd (upd ms i (A ++ mget ms i)) j B).
    { destruct Hp as [(_ & ->)|(_ & mv & rs & Hpm & _ & ->)]; [|eauto]. eexists _, _. split; [|reflexivity]. apply has_key_filter. }
    destruct Hmv as (A & B & HAB & ->).
    destruct (decide (i' = j)) as [->|Hnj].
    + apply elem_of_list_In in Hat. rewrite HAB in Hat. apply elem_of_list_In, in_app_or in Hat. destruct Hat as [Hat|Hat].
      * exists (Some (InMap i)). split; [right; auto|]. apply Hsame; try reflexivity. cbn [at_p]. apply at_upd; [rewrite upd_len; assumption|]. apply Nat.eqb_neq in Hij. rewrite Hij. apply at_upd; [assumption|].
        rewrite Nat.eqb_refl. apply in_or_app. auto.
      * exists (Some (InMap j)). split; [left; reflexivity|]. apply Hsame; try reflexivity. cbn [at_p]. apply at_upd; [rewrite upd_len; assumption|]. rewrite Nat.eqb_refl. assumption.
    + exists (Some (InMap i')). split; [left; reflexivity|]. apply Hsame; try reflexivity. cbn [at_p]. apply at_upd; [rewrite upd_len; assumption|]. apply Nat.eqb_neq in Hnj. rewrite Hnj. apply at_upd; [assumption|].
      destruct (Nat.eqb_spec i' i) as [->|]; [apply in_or_app; auto|assumption].
  - cbn [goes becomes] in *. destruct Hlen as [Hi Hn]. destruct Hp as (-> & (y & -> & Hy) & -> & -> & Hf).
    destruct pl as [i'|m]; cbn [at_p] in Hat; (eexists; split; [reflexivity|]).
    + destruct (Nat.eqb_spec i' i) as [->|Hne]; [destruct (eqb k (fst e)) eqn:Hk|]; cbn [andb].
      * eapply Hfr; [exact Hf| |reflexivity]. cbn [at_p]. unfold nget. rewrite nth_upd_eq by assumption. rewrite Hke in Hk. apply (s_find_in hash eqb HK); auto.
      * eapply Hfr; [exact Hf| |reflexivity]. cbn [at_p]. apply at_upd; [assumption|]. rewrite Nat.eqb_refl. apply filter_In. split; [assumption|]. rewrite <- Hke, Hk. reflexivity.
      * eapply Hfr; [exact Hf| |reflexivity]. cbn [at_p]. apply at_upd; [assumption|]. apply Nat.eqb_neq in Hne. rewrite Hne. assumption.
    + destruct (Nat.eqb_spec m n) as [->|Hne].
      * apply Hf. rewrite Hat. left. reflexivity.
      * eapply Hfr; [exact Hf| |reflexivity]. cbn [at_p]. unfold nget. rewrite nth_upd_ne by congruence. assumption.
  - cbn [goes becomes] in *. destruct Hlen as [Hi Hn]. destruct Hp as (-> & -> & Hp).
    assert (Hc : (ms' = ms /\ ns' = ns /\ r <> MBool true) \/ (exists y, nget ns n = Some y /\ r = MBool true /\ ms' = upd ms i (y :: mget ms i) /\ ns' = upd ns n None)).
    { destruct (nget ns n) as [y|]; [|left; intuition congruence]. destruct (has_key eqb (mget ms i) y); [left; intuition congruence|].
      destruct Hp as [(-> & -> & ->)|(-> & -> & ->)]; [right; eauto|left; intuition congruence]. }
    destruct Hc as [(-> & -> & Hr)|(y & Hy & -> & -> & ->)].
    + exists (Some pl). split; [|apply Hsame; auto; destruct pl; reflexivity]. destruct pl as [i'|m]; [reflexivity|].
      destruct r as [| | |[]| |]; try (rewrite andb_false_r; reflexivity). congruence.
    + destruct pl as [i'|m]; cbn [at_p] in Hat.
      * exists (Some (InMap i')). split; [reflexivity|]. apply Hsame; auto. cbn [at_p]. apply at_upd; [assumption|]. destruct (Nat.eqb_spec i' i) as [->|]; [right|]; assumption.
      * eexists. split; [reflexivity|]. rewrite andb_true_r. destruct (Nat.eqb_spec m n) as [->|Hne].
        -- rewrite Hat in Hy. injection Hy as <-. apply Hsame; auto. cbn [at_p]. apply at_upd; [assumption|]. rewrite Nat.eqb_refl. left. reflexivity.
        -- apply Hsame; auto. cbn [at_p]. unfold nget. rewrite nth_upd_ne by congruence. assumption.
  - cbn [goes becomes] in *. destruct Hp as (-> & -> & -> & -> & _). exists (Some pl). split; [destruct pl; reflexivity|]. apply Hsame; auto.
  - cbn [goes becomes] in *. destruct Hp as (-> & seen & ys & -> & Hperm & Hys & -> & -> & Hf).
    destruct pl as [i'|n]; cbn [at_p] in Hat; [|exists (Some (InHandle n)); split; [reflexivity|eapply Hfr; eauto]].
    assert (Hon : on_node H p x = p e) by (apply shows_on; split; assumption).
    eexists. split; [reflexivity|]. destruct (Nat.eqb_spec i' i) as [->|Hne]; [destruct (p e) eqn:Hk|]; cbn [andb].
    + apply Hf, in_map, filter_In. auto.
    + eapply Hfr; [exact Hf| |reflexivity]. cbn [at_p]. apply at_upd; [assumption|]. rewrite Nat.eqb_refl. apply filter_In. split; [assumption|]. rewrite Hon. reflexivity.
    + eapply Hfr; [exact Hf| |reflexivity]. cbn [at_p]. apply at_upd; [assumption|]. apply Nat.eqb_neq in Hne. rewrite Hne. assumption.
  - cbn [goes becomes] in *. destruct Hp as (-> & Hp). exists (Some pl). split; [destruct pl; reflexivity|]. apply Hsame; [|destruct pl; reflexivity|].
    + destruct pl as [i'|n]; cbn [at_p] in *; [|assumption].
      destruct (s_find eqb (mget ms i) k) as [y|]; [destruct Hp as (_ & -> & _ & _); assumption|].
      destruct Hp as (_ & [(_ & -> & _)|(_ & -> & _)]); [|assumption]. apply at_upd; [assumption|]. destruct (Nat.eqb_spec i' i) as [->|]; [right|]; assumption.
    + destruct (s_find eqb (mget ms i) k) as [y|]; [destruct Hp as (_ & _ & -> & _)|destruct Hp as (-> & _)]; apply lookup_app_l; assumption.
Qed.
Lemma nodup_concat (ms : list (list ptr)) : NoDup (map snd (concat ms)) -> forall i j x y, In x (mget ms i) -> In y (mget ms j) -> snd x = snd y -> i = j.
Proof using.
  clear. induction ms as [|m ms IH]; intros Hn i j x y Hx Hy He; [destruct i; destruct Hx|].
  cbn [concat] in Hn. rewrite map_app in Hn. apply NoDup_app in Hn. destruct Hn as (H1 & H2 & H3).
  assert (Hin : forall i0 z, In z (nth i0 ms []) -> snd z ∈ map snd (concat ms)).
  { intros i0 z Hz. apply elem_of_list_In, in_map, in_concat. exists (nth i0 ms []). split; [|assumption].
    destruct (nth_in_or_default i0 ms []) as [|Hd]; [assumption|]. rewrite Hd in Hz. destruct Hz. }
  unfold mget in *. destruct i as [|i], j as [|j]; cbn in *; [reflexivity| | |f_equal; eapply IH; eassumption]; exfalso.
  - apply (H2 (snd x)); [apply elem_of_list_In, in_map; assumption|]. rewrite He. eapply Hin. eassumption.
  - apply (H2 (snd y)); [apply elem_of_list_In, in_map; assumption|]. rewrite <- He. eapply Hin. eassumption.
Qed.
Lemma nodup_elems (ns : list (option ptr)) : NoDup (map snd (elems ns)) -> forall i j x y, nget ns i = Some x -> nget ns j = Some y -> snd x = snd y -> i = j.
Proof using.
  clear. induction ns as [|o ns IH]; intros Hn i j x y Hx Hy He; [destruct i; discriminate|].
  assert (Hn' : NoDup (map snd (elems ns))) by (destruct o; [cbn in Hn; apply NoDup_cons in Hn; tauto|assumption]).
  unfold nget in *. destruct i as [|i], j as [|j]; cbn in *; [reflexivity| | |f_equal; eapply IH; eassumption]; exfalso; subst o; cbn in Hn; apply NoDup_cons in Hn; apply Hn, elem_of_list_In.
  - rewrite He. apply in_map. eapply nget_elems. exact Hy.
  - rewrite <- He. apply in_map. eapply nget_elems. exact Hx.
Qed.
Lemma at_p_inj ms ns L H pl pl' x : heap_ok (owned ms ns L) H -> at_p ms ns pl x -> at_p ms ns pl' x -> pl = pl'.
Proof using.
  clear. intros HO. pose proof (ho_nodup _ _ HO) as Hn. unfold owned in Hn. rewrite !map_app in Hn. apply NoDup_app in Hn. destruct Hn as (H1 & H2 & H3).
  apply NoDup_app in H3. destruct H3 as (H3 & _ & _).
  assert (Hx : forall i n, In x (mget ms i) -> nget ns n = Some x -> False).
  { intros i n Hi Hn. apply (H2 (snd x)).
    - apply elem_of_list_In, in_map, in_concat. exists (mget ms i). split; [|assumption]. unfold mget in *.
      destruct (nth_in_or_default i ms []) as [|Hd]; [assumption|]. rewrite Hd in Hi. destruct Hi.
    - apply elem_of_app. left. apply elem_of_list_In, in_map. eapply nget_elems. eassumption. }
  destruct pl as [i|n], pl' as [i'|n']; cbn [at_p]; intros Ha Hb.
  - f_equal. eapply nodup_concat; eauto.
  - exfalso. eauto.
  - exfalso. eauto.
  - f_equal. eapply nodup_elems; eauto.
Qed.
End Contents.
