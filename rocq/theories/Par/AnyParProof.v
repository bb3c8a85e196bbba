(** Parallel containers keep the weak invariant of [AnyHashProof] in every submap, and every call is one the
    specification [AnyParSpec] allows. *)
From stdpp Require Import list list_numbers.
From Coq Require Import Arith NArith ZArith Lia.
From Coq Require Import ZifyBool ZifyNat ZifyN.
From Verif.Common Require Import Res Word.
From Verif.Swiss Require Import Group GroupSpec Model Probe Inv TableInv Resize Ops
  AnyHashSpec AnyHash AnyHashProof PropsAnyHash AnyMultiSpec AnyMulti AnyMultiProof.
From Verif.Par Require Import Seq SeqProof AnyParSpec AnyPar.
Local Open Scope nat_scope.
Local Open Scope res_scope.
Local Arguments elems : simpl never.

Section Pieces.
Context {K V : Type} (hash : nat -> K -> N) (eqb : nat -> K -> K -> bool) (eeq : nat -> K * V -> K * V -> bool)
  (E : env) (HE : env_ok E).
Set Default Proof Using "HE hash eqb eeq".
Notation elt := (K * V)%type.
Notation table := (table K V).
Notation ptable := (list table).
Notation good := (wgood E).

(** ** one submap among the others *)
Lemma pelems_at (ps : ptable) i t : ps !! i = Some t -> pelems ps = pelems (take i ps) ++ pe t ++ after ps i.
Proof.
  intros Hi. rewrite <- (take_drop_middle ps i t Hi) at 1. rewrite pelems_app. reflexivity.
Qed.
Lemma take_insert_same (ps : ptable) i t : take i (<[i := t]> ps) = take i ps.
Proof. apply take_insert. lia. Qed.
Lemma after_insert (ps : ptable) i i' t : i <= i' -> after (<[i := t]> ps) i' = after ps i'.
Proof. intros H. unfold after. rewrite drop_insert_gt by lia. reflexivity. Qed.
Lemma capafter_insert (ps : ptable) i i' t : i <= i' -> capafter (<[i := t]> ps) i' = capafter ps i'.
Proof. intros H. unfold capafter. rewrite drop_insert_gt by lia. reflexivity. Qed.
Lemma pelems_set (ps : ptable) i t t' : ps !! i = Some t -> pelems (<[i := t']> ps) = pelems (take i ps) ++ pe t' ++ after ps i.
Proof.
  intros Hi. rewrite (pelems_at _ i t') by (apply list_lookup_insert; apply lookup_lt_Some in Hi; assumption).
  rewrite take_insert_same, after_insert by lia. reflexivity.
Qed.
Lemma pelems_length (ps : ptable) : Forall good ps -> p_size ps = length (pelems ps).
Proof.
  induction 1 as [|t ps Ht _ IH]; [reflexivity|]. unfold p_size in *. cbn. rewrite app_length, IH, (w_size E t Ht). reflexivity.
Qed.
Lemma pelems_concat (ps : ptable) : pelems ps = concat (pe <$> ps).
Proof. induction ps as [|t ps IH]; [reflexivity|]. cbn. f_equal. exact IH. Qed.
Lemma pe_slot (t : table) p e : t_slots t !! p = Some (Some e) -> exists l2, pe t = elems (take p (t_slots t)) ++ e :: l2 /\
  (forall t', t_slots t' = <[p := None]> (t_slots t) -> pe t' = elems (take p (t_slots t)) ++ l2) /\
  (forall t' e', t_slots t' = <[p := Some e']> (t_slots t) -> pe t' = elems (take p (t_slots t)) ++ e' :: l2).
Proof.
  intros H. destruct (elems_split _ _ _ H) as (l2 & H1 & H2 & H3). exists l2. unfold pe. split; [assumption|].
  split; [intros t' ->; assumption|intros t' e' ->; apply H3].
Qed.

(** ** positions *)
Definition front (ps : ptable) (i : nat) (t : table) (j : nat) : list elt := pelems (take i ps) ++ elems (take j (t_slots t)).
Definition back (ps : ptable) (i : nat) (t : table) (j : nat) : list elt := elems (drop j (t_slots t)) ++ after ps i.
Definition left_ (ps : ptable) (i : nat) (t : table) (j : nat) : nat := t_cap t - j + capafter ps i.
Lemma front_back (ps : ptable) i t j : ps !! i = Some t -> front ps i t j ++ back ps i t j = pelems ps.
Proof.
  intros Hi. rewrite (pelems_at ps i t Hi). unfold front, back, pe. rewrite <- (take_drop j (t_slots t)) at 3. rewrite elems_app, !app_assoc. reflexivity.
Qed.
Lemma back_cons (ps : ptable) i t j e : t_slots t !! j = Some (Some e) -> back ps i t j = e :: back ps i t (S j).
Proof. intros H. unfold back. rewrite (drop_cons _ _ _ H). reflexivity. Qed.
Lemma wgood_begin (t : table) : good t -> exists j, begin_it E t = Ok j /\ at_slot t j /\ elems (drop j (t_slots t)) = pe t.
Proof.
  intros [->|Ht].
  - exists 0. split; [reflexivity|]. split; [split; [cbn; lia|left; reflexivity]|reflexivity].
  - destruct (begin_any hash eqb eeq E HE t Ht) as (j & H1 & H2 & H3 & H4 & _). exists j. split; [assumption|]. split; [split; assumption|assumption].
Qed.
Lemma skip_pos f : forall (ps : ptable) i j t, Forall good ps -> ps !! i = Some t -> at_slot t j -> length ps - i <= f ->
  (p_skip E f ps i j = Ok None /\ back ps i t j = []) \/
  exists i' j' t' e, p_skip E f ps i j = Ok (Some (i', j')) /\ ps !! i' = Some t' /\ t_slots t' !! j' = Some (Some e) /\ j' < t_cap t' /\
    back ps i t j = back ps i' t' j' /\ left_ ps i' t' j' <= left_ ps i t j /\ (i < i' \/ (i' = i /\ j' = j)).
Proof.
  unfold back, left_. induction f as [|f IH]; intros ps i j t Hps Hi Hat Hf.
  { apply lookup_lt_Some in Hi. lia. }
  cbn [p_skip]. rewrite (load_some _ _ _ Hi). cbn [rbind]. pose proof (lookup_lt_Some _ _ _ Hi) as Hlt.
  destruct (Nat.eqb_spec j (t_cap t)) as [->|Hne].
  - assert (Hend : elems (drop (t_cap t) (t_slots t)) = []).
    { pose proof (Forall_lookup_1 _ _ _ _ Hps Hi) as [->|Ht]; [reflexivity|].
      rewrite drop_ge; [reflexivity|]. rewrite (w_slen _ _ (wv_0 _ _ Ht)). lia. }
    rewrite Hend. destruct (Nat.eqb_spec (S i) (length ps)) as [Hl|Hl].
    + left. split; [reflexivity|]. unfold after. rewrite drop_ge by lia. reflexivity.
    + destruct (lookup_lt_is_Some_2 ps (S i) ltac:(lia)) as [t1 Ht1]. rewrite (load_some _ _ _ Ht1). cbn [rbind].
      destruct (wgood_begin t1 (Forall_lookup_1 _ _ _ _ Hps Ht1)) as (j1 & Hj1 & Hat1 & Hel1). rewrite Hj1. cbn [rbind].
      destruct (after_step ps i t1 Ht1) as [Ha Hc]. rewrite Ha, Hc. cbn [app].
      destruct (IH ps (S i) j1 t1 Hps Ht1 Hat1 ltac:(lia)) as [[H1 H2]|(i' & j' & t' & e & H1 & H2 & H3 & H4 & H5 & H6 & H7)].
      * left. split; [assumption|]. rewrite <- Hel1. assumption.
      * right. exists i', j', t', e. rewrite <- Hel1. repeat (split; [assumption|]). split; [lia|]. left. lia.
  - destruct Hat as [Hle [?|(e & He)]]; [contradiction|]. right. exists i, j, t, e.
    split; [reflexivity|]. split; [assumption|]. split; [assumption|]. split; [lia|]. split; [reflexivity|]. split; [lia|right; auto].
Qed.
Lemma next_pos (ps : ptable) i j t e : Forall good ps -> ps !! i = Some t -> t_slots t !! j = Some (Some e) ->
  (p_next E ps (i, j) = Ok None /\ back ps i t (S j) = []) \/
  exists i' j' t' e', p_next E ps (i, j) = Ok (Some (i', j')) /\ ps !! i' = Some t' /\ t_slots t' !! j' = Some (Some e') /\
    back ps i t (S j) = back ps i' t' j' /\ left_ ps i' t' j' < left_ ps i t j /\ (i < i' \/ (i' = i /\ j < j')).
Proof.
  intros Hps Hi He. pose proof (Forall_lookup_1 _ _ _ _ Hps Hi) as [->|Ht]; [discriminate|].
  pose proof (lookup_lt_Some _ _ _ He) as Hj. rewrite (w_slen _ _ (wv_0 _ _ Ht)) in Hj.
  destruct (next_any hash eqb eeq E HE t j Ht Hj) as (j2 & Hj2 & Hr & Hs & Hel & _).
  unfold p_next. rewrite (load_some _ _ _ Hi). cbn [rbind]. rewrite Hj2. cbn [rbind].
  assert (Hb : back ps i t (S j) = back ps i t j2) by (unfold back; rewrite Hel; reflexivity).
  destruct (skip_pos (length ps) ps i j2 t Hps Hi (conj (proj2 Hr) Hs) ltac:(lia)) as [[H1 H2]|(i' & j' & t' & e' & H1 & H2 & H3 & H4 & H5 & H6 & H7)].
  - left. split; [assumption|]. rewrite Hb. assumption.
  - right. exists i', j', t', e'. rewrite Hb. repeat (split; [assumption|]). unfold left_ in *. split; [lia|].
    destruct H7 as [H7|[-> ->]]; [left; assumption|right; split; [reflexivity|lia]].
Qed.
Lemma begin_pos (ps : ptable) : Forall good ps -> 1 <= length ps ->
  (p_begin E ps = Ok None /\ pelems ps = []) \/
  exists i j t e, p_begin E ps = Ok (Some (i, j)) /\ ps !! i = Some t /\ t_slots t !! j = Some (Some e) /\
    back ps i t j = pelems ps /\ left_ ps i t j <= total_cap ps.
Proof.
  intros Hps Hl. destruct (lookup_lt_is_Some_2 ps 0 Hl) as [t Ht]. unfold p_begin. rewrite (load_some _ _ _ Ht). cbn [rbind].
  destruct (wgood_begin t (Forall_lookup_1 _ _ _ _ Hps Ht)) as (j & Hj & Hat & Hel). rewrite Hj. cbn [rbind].
  assert (Hb : back ps 0 t j = pelems ps). { unfold back. rewrite Hel, (pelems_at ps 0 t Ht). reflexivity. }
  assert (Hc : left_ ps 0 t j <= total_cap ps).
  { destruct ps as [|a ps0]; [discriminate|]. injection Ht as ->. unfold left_, capafter, total_cap. cbn. rewrite drop_0. lia. }
  destruct (skip_pos (length ps) ps 0 j t Hps Ht Hat ltac:(lia)) as [[H1 H2]|(i' & j' & t' & e & H1 & H2 & H3 & H4 & H5 & H6 & H7)].
  - left. split; [assumption|]. rewrite <- Hb. assumption.
  - right. exists i', j', t', e. rewrite <- Hb. repeat (split; [assumption || (symmetry; assumption)|]). lia.
Qed.
(** ** traversal *)
Lemma iterate_pos f : forall (ps : ptable) i j t e, Forall good ps -> ps !! i = Some t -> t_slots t !! j = Some (Some e) -> left_ ps i t j < f ->
  p_iterate_from E f ps (Some (i, j)) = Ok (back ps i t j).
Proof.
  induction f as [|f IH]; intros ps i j t e Hps Hi He Hf; [lia|]. cbn [p_iterate_from]. unfold p_deref. cbn [fst snd].
  rewrite (load_some _ _ _ Hi). cbn [rbind]. rewrite (deref_some t j e He). cbn [rbind]. rewrite (back_cons ps i t j e He).
  destruct (next_pos ps i j t e Hps Hi He) as [[H1 H2]|(i' & j' & t' & e' & H1 & H2 & H3 & H4 & H5 & H6)]; rewrite H1; cbn [rbind].
  - destruct f as [|f]; [unfold left_ in Hf; pose proof (lookup_lt_Some _ _ _ He) as Hj|].
    + pose proof (Forall_lookup_1 _ _ _ _ Hps Hi) as [->|Ht]; [discriminate|]. rewrite (w_slen _ _ (wv_0 _ _ Ht)) in Hj. lia.
    + cbn. rewrite H2. reflexivity.
  - rewrite (IH ps i' j' t' e' Hps H2 H3 ltac:(lia)). cbn [rbind]. rewrite H4. reflexivity.
Qed.
Lemma to_list_any (ps : ptable) : Forall good ps -> 1 <= length ps -> p_to_list E ps = Ok (pelems ps).
Proof.
  intros Hps Hl. unfold p_to_list. destruct (begin_pos ps Hps Hl) as [[H1 H2]|(i & j & t & e & H1 & H2 & H3 & H4 & H5)]; rewrite H1; cbn [rbind].
  - cbn. rewrite H2. reflexivity.
  - rewrite (iterate_pos (S (total_cap ps)) ps i j t e Hps H2 H3 ltac:(lia)), H4. reflexivity.
Qed.
(** ** the j-th element *)
Lemma advance_ok m : forall (ps : ptable) i j t e, Forall good ps -> ps !! i = Some t -> t_slots t !! j = Some (Some e) -> m < length (back ps i t j) ->
  exists i' j' t' e', p_advance E m ps (Some (i, j)) = Ok (i', j') /\ ps !! i' = Some t' /\ t_slots t' !! j' = Some (Some e') /\
    back ps i' t' j' = drop m (back ps i t j).
Proof.
  induction m as [|m IH]; intros ps i j t e Hps Hi He Hm; cbn [p_advance].
  - exists i, j, t, e. rewrite drop_0. auto.
  - rewrite (back_cons ps i t j e He) in *. cbn [length drop] in *.
    destruct (next_pos ps i j t e Hps Hi He) as [[H1 H2]|(i' & j' & t' & e' & H1 & H2 & H3 & H4 & H5 & H6)]; rewrite H1; cbn [rbind].
    + rewrite H2 in Hm. cbn in Hm. lia.
    + rewrite H4 in *. apply (IH ps i' j' t' e' Hps H2 H3). lia.
Qed.
Lemma nth_ok (ps : ptable) m : Forall good ps -> 1 <= length ps -> m < length (pelems ps) ->
  exists i j t e, p_nth E ps m = Ok (i, j) /\ ps !! i = Some t /\ t_slots t !! j = Some (Some e) /\ length (front ps i t j) = m.
Proof.
  intros Hps Hl Hm. unfold p_nth. destruct (begin_pos ps Hps Hl) as [[H1 H2]|(i & j & t & e & H1 & H2 & H3 & H4 & H5)]; rewrite H1; cbn [rbind].
  - rewrite H2 in Hm. cbn in Hm. lia.
  - destruct (advance_ok m ps i j t e Hps H2 H3) as (i' & j' & t' & e' & Ha & Hi & He & Hb); [rewrite H4; assumption|].
    exists i', j', t', e'. repeat (split; [assumption|]). rewrite H4 in Hb. pose proof (front_back ps i' t' j' Hi) as Hfb.
    apply (f_equal length) in Hfb. rewrite app_length, Hb, drop_length in Hfb. lia.
Qed.
(* an element taken out of the submap the iterator is in *)
Lemma take_out (ps : ptable) i j t e : Forall good ps -> ps !! i = Some t -> t_slots t !! j = Some (Some e) ->
  exists t', erase_at E t j = Ok (e, t') /\ winv E t' /\ t_slots t' = <[j := None]> (t_slots t) /\ t_cap t' = t_cap t /\ Forall good (<[i := t']> ps).
Proof.
  intros Hps Hi He. pose proof (Forall_lookup_1 _ _ _ _ Hps Hi) as [->|Ht]; [discriminate|].
  destruct (w_erase E HE hash eqb t j e Ht He) as (t' & H1 & H2 & H3). exists t'. split; [assumption|]. split; [assumption|]. split; [assumption|].
  split; [|apply Forall_insert; [assumption|right; assumption]].
  rewrite <- (w_slen _ _ (wv_0 _ _ H2)), H3, insert_length, (w_slen _ _ (wv_0 _ _ Ht)). reflexivity.
Qed.
(* what changes when slot [j] of submap [i] is set *)
Lemma set_front_back (ps : ptable) i j t t' s : ps !! i = Some t -> j < length (t_slots t) -> t_slots t' = <[j := s]> (t_slots t) -> 
  pelems (<[i := t']> ps) = front ps i t j ++ match s with Some e => [e] | None => [] end ++ back ps i t (S j).
Proof.
  intros Hi Hj Hs. rewrite (pelems_set ps i t t' Hi). unfold front, back, pe. rewrite Hs, insert_take_drop by assumption.
  rewrite elems_app. change (s :: drop (S j) (t_slots t)) with ([s] ++ drop (S j) (t_slots t)). rewrite elems_app, !app_assoc.
  destruct s; reflexivity.
Qed.
Lemma erase_pos (ps : ptable) i j t e : Forall good ps -> ps !! i = Some t -> t_slots t !! j = Some (Some e) ->
  exists t', erase_at E t j = Ok (e, t') /\ Forall good (<[i := t']> ps) /\
    pelems ps = front ps i t j ++ e :: back ps i t (S j) /\ pelems (<[i := t']> ps) = front ps i t j ++ back ps i t (S j).
Proof.
  intros Hps Hi He. destruct (take_out ps i j t e Hps Hi He) as (t' & H1 & H2 & H3 & _ & H4). exists t'. split; [assumption|]. split; [assumption|].
  split; [rewrite <- (back_cons ps i t j e He), front_back by assumption; reflexivity|].
  rewrite (set_front_back ps i j t t' None Hi (lookup_lt_Some _ _ _ He) H3). reflexivity.
Qed.
(** ** erase_if *)
Lemma later_same (ps : ptable) i j t t2 s i' j' t' e' : ps !! i = Some t -> t_slots t2 = <[j := s]> (t_slots t) -> t_cap t2 = t_cap t ->
  ps !! i' = Some t' -> t_slots t' !! j' = Some (Some e') -> (i < i' \/ (i' = i /\ j < j')) ->
  exists t3, (<[i := t2]> ps) !! i' = Some t3 /\ t_slots t3 !! j' = Some (Some e') /\
    back (<[i := t2]> ps) i' t3 j' = back ps i' t' j' /\ left_ (<[i := t2]> ps) i' t3 j' = left_ ps i' t' j'.
Proof.
  intros Hi Hs Hc Hi' He' Hor. destruct Hor as [Hlt|[-> Hlt]].
  - exists t'. rewrite list_lookup_insert_ne by lia. unfold back, left_. rewrite after_insert, capafter_insert by lia. auto.
  - rewrite Hi in Hi'. injection Hi' as <-. exists t2. rewrite list_lookup_insert by (apply lookup_lt_Some in Hi; assumption).
    unfold back, left_. rewrite after_insert, capafter_insert, Hc, Hs by lia. rewrite list_lookup_insert_ne by lia. rewrite drop_insert_gt by lia. auto.
Qed.
Lemma erase_if_pos p f : forall m (ps : ptable) i j t e, Forall good ps -> ps !! i = Some t -> t_slots t !! j = Some (Some e) -> left_ ps i t j < f ->
  exists ps', p_erase_if_any E f p m ps (Some (i, j)) = Ok ps' /\ Forall good ps' /\ length ps' = length ps /\
    pelems ps' = front ps i t j ++ left_by p m (back ps i t j).
Proof.
  induction f as [|f IH]; intros m ps i j t e Hps Hi He Hf; [lia|]. cbn [p_erase_if_any]. unfold p_deref. cbn [fst snd].
  rewrite (load_some _ _ _ Hi). cbn [rbind]. rewrite (deref_some t j e He). cbn [rbind].
  assert (Hf0 : exists f', f = S f').
  { destruct f as [|f']; [|eauto]. pose proof (Forall_lookup_1 _ _ _ _ Hps Hi) as [->|Ht]; [discriminate|].
    pose proof (lookup_lt_Some _ _ _ He) as Hj. rewrite (w_slen _ _ (wv_0 _ _ Ht)) in Hj. unfold left_ in Hf. lia. }
  assert (Hstep : exists t2 s, (if p m e then p_erase_at E ps (i, j) else Ok ps) = Ok (<[i := t2]> ps) /\
            Forall good (<[i := t2]> ps) /\ t_slots t2 = <[j := s]> (t_slots t) /\ t_cap t2 = t_cap t /\
            match s with Some e => [e] | None => [] end = (if p m e then [] else [e])).
  { destruct (p m e).
    - destruct (take_out ps i j t e Hps Hi He) as (t' & H1 & H2 & H3 & H4 & H5). exists t', None. unfold p_erase_at. cbn [fst snd].
      rewrite (load_some _ _ _ Hi). cbn [rbind]. rewrite H1. cbn [rbind]. auto.
    - exists t, (Some e). rewrite list_insert_id by assumption. rewrite list_insert_id by assumption. auto. }
  destruct Hstep as (t2 & s & Hr & Hg2 & Hs & Hc & Hout).
  pose proof (set_front_back ps i j t t2 s Hi (lookup_lt_Some _ _ _ He) Hs) as Hel. rewrite Hout in Hel.
  rewrite (back_cons ps i t j e He). cbn [left_by].
  destruct (next_pos ps i j t e Hps Hi He) as [[H1 H2]|(i' & j' & t' & e' & H1 & H2 & H3 & H4 & H5 & H6)]; rewrite H1; cbn [rbind]; rewrite Hr; cbn [rbind].
  - destruct Hf0 as (f' & ->). cbn [p_erase_if_any]. exists (<[i := t2]> ps). split; [reflexivity|]. split; [assumption|]. split; [apply insert_length|].
    rewrite Hel, H2. reflexivity.
  - destruct (later_same ps i j t t2 s i' j' t' e' Hi Hs Hc H2 H3 H6) as (t3 & A1 & A2 & A3 & A4).
    destruct (IH (S m) (<[i := t2]> ps) i' j' t3 e' Hg2 A1 A2 ltac:(lia)) as (ps' & B1 & B2 & B3 & B4).
    exists ps'. split; [assumption|]. split; [assumption|]. split; [rewrite B3; apply insert_length|].
    rewrite B4, A3, <- H4. rewrite app_assoc. f_equal.
    apply (app_inv_tail (back (<[i := t2]> ps) i' t3 j')). rewrite (front_back _ i' t3 j' A1), Hel, A3, H4, app_assoc. reflexivity.
Qed.
(** ** clear, rehash, copy *)
Lemma clear_any (ps : ptable) : Forall good ps -> exists ps', p_clear E ps = Ok ps' /\ Forall good ps' /\ length ps' = length ps /\ pelems ps' = [].
Proof.
  induction 1 as [|t ps Ht _ (ps' & H1 & H2 & H3 & H4)]; cbn [p_clear].
  - exists []. auto.
  - destruct (w_clear E HE hash eqb t Ht) as (t' & Hc & Ht' & Hl). rewrite Hc. cbn [rbind]. rewrite H1. cbn [rbind].
    exists (t' :: ps'). split; [reflexivity|]. split; [constructor; assumption|]. cbn [length]. split; [congruence|].
    change (pelems (t' :: ps')) with (pe t' ++ pelems ps'). unfold pe. rewrite Hl, H4. reflexivity.
Qed.
Lemma rehash_parts nn (ps : ptable) : Forall good ps -> nn <> 0%N -> (nn < 2 ^ 64)%N -> no_wrap E (NormalizeCapacity nn) ->
  forall n, exists ps' b n', p_rehash_any hash E nn n ps = Ok (ps', b, n') /\ Forall good ps' /\ length ps' = length ps /\ pelems ps' ≡ₚ pelems ps.
Proof.
  intros Hps H0 H1 H2. induction Hps as [|t ps Ht Hps IH]; intros n; cbn [p_rehash_any].
  - exists [], false, n. auto.
  - destruct (rehash_any_ok E HE hash eqb t nn n Ht H0 H1 H2) as [Hb|(t' & n1 & Hr & Ht' & Hp)].
    + rewrite Hb. exists (t :: ps), true, n. split; [reflexivity|]. auto.
    + rewrite Hr. destruct (IH n1) as (ps' & b & n2 & I1 & I2 & I3 & I4). rewrite I1. cbn [rbind].
      exists (t' :: ps'), b, n2. split; [reflexivity|]. split; [constructor; assumption|]. cbn [length]. split; [congruence|].
      change (pe t' ++ pelems ps' ≡ₚ pe t ++ pelems ps). f_equiv; assumption.
Qed.
Lemma copy_parts (dst : ptable) : Forall good dst -> forall src n, Forall good src -> length src = length dst ->
  exists ps' b n', p_copy_any hash E n dst src = Ok (ps', b, n') /\ Forall good ps' /\ length ps' = length dst /\
    if b : bool then exists k c1, pelems ps' = c1 ++ pelems (drop k dst) /\ c1 ≡ₚ pelems (take k src)
    else pelems ps' ≡ₚ pelems src.
Proof.
  induction 1 as [|d dst Hd Hdst IH]; intros [|s src] n Hsrc Hl; try discriminate; cbn [p_copy_any].
  - exists [], false, n. auto.
  - inversion Hsrc as [|? ? Hs Hsrc']; subst.
    destruct (copy_any_ok E HE hash eqb s n Hs) as [Hb|(t' & n1 & Hr & Ht' & Hp)].
    + rewrite Hb. exists (d :: dst), true, n. split; [reflexivity|]. split; [constructor; assumption|]. split; [reflexivity|]. exists 0, []. auto.
    + rewrite Hr. destruct (IH src n1 Hsrc' ltac:(cbn in Hl; lia)) as (ps' & b & n2 & I1 & I2 & I3 & I4). rewrite I1. cbn [rbind].
      exists (t' :: ps'), b, n2. split; [reflexivity|]. split; [constructor; assumption|]. cbn [length]. split; [congruence|].
      change (pelems (t' :: ps')) with (pe t' ++ pelems ps'). change (pe t' ≡ₚ pe s) in Hp. destruct b.
      * destruct I4 as (k & c1 & J1 & J2). exists (S k), (pe t' ++ c1). cbn [drop take]. rewrite J1, app_assoc. split; [reflexivity|].
        change (pe t' ++ c1 ≡ₚ pe s ++ pelems (take k src)). f_equiv; assumption.
      * change (pe t' ++ pelems ps' ≡ₚ pe s ++ pelems src). f_equiv; assumption.
Qed.
(* submap by submap: those before the one that threw are copies, that one and the later ones are as before *)
Lemma copy_submaps (dst : ptable) : forall src n, Forall good src -> length src = length dst ->
  forall ps' b n', p_copy_any hash E n dst src = Ok (ps', b, n') ->
  exists k, (if b : bool then k < length dst else k = length dst) /\
    (forall j t, j < k -> src !! j = Some t -> exists t', ps' !! j = Some t' /\ good t' /\ pe t' ≡ₚ pe t) /\
    (forall j, k <= j -> ps' !! j = dst !! j).
Proof.
  induction dst as [|d dst IH]; intros [|s src] n Hsrc Hl ps' b n' H; try discriminate; cbn [p_copy_any] in H.
  - injection H as <- <- <-. exists 0. split; [reflexivity|]. split; [intros; lia|reflexivity].
  - inversion Hsrc as [|? ? Hs Hsrc']; subst.
    destruct (copy_any_ok E HE hash eqb s n Hs) as [Hb|(t' & n1 & Hr & Ht' & Hp)].
    + rewrite Hb in H. injection H as <- <- <-. exists 0. split; [cbn; lia|]. split; [intros; lia|reflexivity].
    + rewrite Hr in H. destruct (p_copy_any hash E n1 dst src) as [[[r b0] n2]| | | |] eqn:Hx; try discriminate. cbn [rbind] in H. injection H as <- <- <-.
      destruct (IH src n1 Hsrc' ltac:(cbn in Hl; lia) _ _ _ Hx) as (k & K1 & K2 & K3). exists (S k). split; [destruct b0; cbn; lia|]. split.
      * intros [|j] t Hj Hjt; [injection Hjt as <-; exists t'; auto|]. apply (K2 j t ltac:(lia) Hjt).
      * intros [|j] Hj; [lia|]. apply (K3 j). lia.
Qed.
(** ** ==, merge *)
Lemma table_eq_any_ok (a b : table) n : good a -> good b -> exists r n', table_eq_any hash eeq E n a b = Ok (r, n') /\ n <= n' /\
  (r = true -> length (pe a) = length (pe b) /\
     ((forall u, In u (pe a) -> exists v q, In v (pe b) /\ n <= q < n' /\ eeq q v u = true) \/
      (forall u, In u (pe b) -> exists v q, In v (pe a) /\ n <= q < n' /\ eeq q v u = true))).
Proof.
  intros Ha Hb. unfold table_eq_any. unfold pe. rewrite <- (w_size E a Ha), <- (w_size E b Hb).
  destruct (Nat.eqb_spec (t_size a) (t_size b)) as [He|_]; [|exists false, n; split; [reflexivity|]; split; [lia|discriminate]].
  destruct (t_cap b <? t_cap a).
  - rewrite (to_list_elems hash eqb E HE b Hb). cbn [rbind].
    destruct (all_in_any_ok hash eqb eeq E HE a (elems (t_slots b)) Ha n) as (r & n' & Hr & Hn & Hin). exists r, n'. split; [assumption|]. split; [assumption|].
    intros Ht. split; [assumption|]. right. exact (Hin Ht).
  - rewrite (to_list_elems hash eqb E HE a Ha). cbn [rbind].
    destruct (all_in_any_ok hash eqb eeq E HE b (elems (t_slots a)) Hb n) as (r & n' & Hr & Hn & Hin). exists r, n'. split; [assumption|]. split; [assumption|].
    intros Ht. split; [assumption|]. left. exact (Hin Ht).
Qed.
Lemma eq_parts (a : ptable) : forall b n, Forall good a -> Forall good b -> length a = length b ->
  exists r n', p_eq_any hash eeq E n a b = Ok (r, n') /\ n <= n' /\
    (r = true -> Forall2 (fun x y : list elt => length x = length y /\
       ((forall u, In u x -> exists v, In v y /\ exists q, n <= q < n' /\ eeq q v u = true) \/
        (forall u, In u y -> exists v, In v x /\ exists q, n <= q < n' /\ eeq q v u = true))) (pe <$> a) (pe <$> b)).
Proof.
  induction a as [|x a IH]; intros [|y b] n Ha Hb Hl; try discriminate; cbn [p_eq_any].
  - exists true, n. split; [reflexivity|]. split; [lia|]. constructor.
  - inversion Ha as [|? ? Ha1 Ha2]; subst. inversion Hb as [|? ? Hb1 Hb2]; subst.
    destruct (table_eq_any_ok x y n Ha1 Hb1) as (r & n1 & Hr & Hn1 & Hin). rewrite Hr. cbn [rbind]. destruct r.
    + destruct (IH b n1 Ha2 Hb2 ltac:(cbn in Hl; lia)) as (r' & n2 & Hr' & Hn2 & Hin'). exists r', n2. split; [assumption|]. split; [lia|].
      intros Ht. cbn [fmap list_fmap]. constructor.
      * destruct (Hin eq_refl) as [Hlen [Hd|Hd]]; (split; [assumption|]); [left|right]; intros u Hu; destruct (Hd u Hu) as (v & q & Q1 & Q2 & Q3); exists v; (split; [assumption|]); exists q; (split; [lia|assumption]).
      * eapply Forall2_impl; [exact (Hin' Ht)|]. intros c d [Hlen [Hd|Hd]]; (split; [assumption|]); [left|right]; intros u Hu; destruct (Hd u Hu) as (v & Q1 & q & Q2 & Q3); exists v; (split; [assumption|]); exists q; (split; [lia|assumption]).
    + exists false, n1. split; [reflexivity|]. split; [assumption|discriminate].
Qed.
Lemma merge_any_le (dst src : table) n d s b n' : good dst -> good src -> merge_any hash eqb E n dst src = Ok (d, s, b, n') -> n <= n'.
Proof.
  intros Hd Hs H. destruct Hs as [->|Hs].
  - cbn in H. injection H as _ _ _ <-. lia.
  - unfold merge_any in H. destruct (begin_any hash eqb eeq E HE src Hs) as (i & Hi & Hic & His & _). rewrite Hi in H. cbn [rbind] in H.
    destruct (merge_loop_any_ok hash eqb eeq E HE (S (t_cap src)) i n dst src Hd Hs Hic ltac:(lia) His) as (d2 & s2 & b2 & n2 & g2 & k2 & H2 & Hn & _).
    rewrite H in H2. injection H2 as _ _ _ <-. assumption.
Qed.
Lemma parted_app (l1 l2 a1 a2 b1 b2 : list elt) : parted l1 a1 b1 -> parted l2 a2 b2 -> parted (l1 ++ l2) (a1 ++ a2) (b1 ++ b2).
Proof. intros H H2. induction H; cbn; [assumption|constructor; assumption|constructor; assumption]. Qed.
Lemma parted_keep (l : list elt) : parted l [] l.
Proof. induction l; constructor; assumption. Qed.
Lemma merge_parts (dst : ptable) : forall src n, Forall good dst -> Forall good src -> length dst = length src ->
  exists dst' src' b n' gone kept, p_merge_any hash eqb E n dst src = Ok (dst', src', b, n') /\ n <= n' /\
    Forall good dst' /\ Forall good src' /\ length dst' = length dst /\ length src' = length src /\
    parted (pelems src) gone kept /\ pelems dst' ≡ₚ gone ++ pelems dst /\ pelems src' = kept /\
    (b = false -> forall e, In e kept -> exists x q, In x (pelems dst') /\ n <= q < n' /\ eqb q (fst e) (fst x) = true).
Proof.
  induction dst as [|d dst IH]; intros [|s src] n Hd Hs Hl; try discriminate; cbn [p_merge_any].
  - exists [], [], false, n, [], []. split; [reflexivity|]. split; [lia|]. repeat (split; [auto; constructor|]). intros _ e [].
  - inversion Hd as [|? ? Hd1 Hd2]; subst. inversion Hs as [|? ? Hs1 Hs2]; subst.
    destruct (merge_any_ok hash eqb eeq E HE d s n Hd1 Hs1) as (d' & s' & b & n1 & g1 & k1 & Hm & Hgd & Hgs & P1 & P2 & P3 & P4).
    pose proof (merge_any_le d s n d' s' b n1 Hd1 Hs1 Hm) as Hn1. rewrite Hm. cbn [rbind].
    change (pe d' ≡ₚ g1 ++ pe d) in P2. change (pe s' = k1) in P3. change (parted (pe s) g1 k1) in P1. destruct b.
    + exists (d' :: dst), (s' :: src), true, n1, g1, (k1 ++ pelems src). split; [reflexivity|]. split; [assumption|].
      split; [constructor; assumption|]. split; [constructor; assumption|]. split; [reflexivity|]. split; [reflexivity|].
      split; [change (parted (pe s ++ pelems src) g1 (k1 ++ pelems src)); rewrite <- (app_nil_r g1); apply parted_app; [assumption|apply parted_keep]|].
      split; [change (pe d' ++ pelems dst ≡ₚ g1 ++ pe d ++ pelems dst); rewrite P2, app_assoc; reflexivity|].
      split; [change (pe s' ++ pelems src = k1 ++ pelems src); rewrite P3; reflexivity|discriminate].
    + destruct (IH src n1 Hd2 Hs2 ltac:(cbn in Hl; lia)) as (dr & sr & b' & n2 & g2 & k2 & I1 & I2 & I3 & I4 & I5 & I6 & I7 & I8 & I9 & I10).
      rewrite I1. cbn [rbind]. exists (d' :: dr), (s' :: sr), b', n2, (g1 ++ g2), (k1 ++ k2). split; [reflexivity|]. split; [lia|].
      split; [constructor; assumption|]. split; [constructor; assumption|]. cbn [length]. split; [congruence|]. split; [congruence|].
      split; [change (parted (pe s ++ pelems src) (g1 ++ g2) (k1 ++ k2)); apply parted_app; assumption|].
      split; [change (pe d' ++ pelems dr ≡ₚ (g1 ++ g2) ++ pe d ++ pelems dst); rewrite P2, I8; solve_Permutation|].
      split; [change (pe s' ++ pelems sr = k1 ++ k2); rewrite P3, I9; reflexivity|].
      intros Hb e He. change (pelems (d' :: dr)) with (pe d' ++ pelems dr). apply in_app_or in He. destruct He as [He|He].
      * destruct (P4 eq_refl e He) as (x & q & Q1 & Q2 & Q3). exists x, q. split; [apply in_or_app; left; assumption|]. split; [lia|assumption].
      * destruct (I10 Hb e He) as (x & q & Q1 & Q2 & Q3). exists x, q. split; [apply in_or_app; right; assumption|]. split; [lia|assumption].
Qed.
End Pieces.
