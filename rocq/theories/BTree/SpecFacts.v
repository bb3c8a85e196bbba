(** Facts about sorted lists, lower, upper and has. *)
From stdpp Require Import list.
From Coq Require Import Arith Lia ZifyBool ZifyNat Sorting.Sorted.
From Verif.BTree Require Import Spec SearchFacts OpsFacts.
Local Open Scope nat_scope.

Section SpecFacts.
Context {V K : Type} (key : V -> K) (lt : K -> K -> bool) (mu : bool) (Hlt : swo lt).
Implicit Types (v x y : V) (k : K) (l L R : list V).
Notation srt := (sorted key lt mu).

Lemma filter_len (p : V -> bool) l : length (List.filter p l) <= length l.
Proof. induction l as [|x l IH]; cbn; [done|]. destruct (p x); cbn; lia. Qed.
Lemma filter_all (p : V -> bool) l : Forall (fun v => p v = true) l -> List.filter p l = l.
Proof. induction 1; cbn; [done|]. rewrite H. by f_equal. Qed.
Lemma filter_none (p : V -> bool) l : Forall (fun v => p v = false) l -> List.filter p l = [].
Proof. induction 1; cbn; [done|]. by rewrite H. Qed.
Lemma filter_split (p : V -> bool) L R : Forall (fun v => p v = true) L -> Forall (fun v => p v = false) R -> length (List.filter p (L ++ R)) = length L.
Proof. intros H1 H2. rewrite List.filter_app, filter_all, filter_none, app_nil_r by done. done. Qed.
Lemma filter_lookup (pr : K -> bool) l j v : mono lt mu pr -> srt l -> l !! j = Some v -> pr (key v) = (j <? length (List.filter (fun v => pr (key v)) l)).
Proof.
  intros Hm Hs. revert j. induction Hs as [|x l Hs IH Hf]; intros j Hj; [done|]. cbn [List.filter]. destruct (pr (key x)) eqn:E.
  - destruct j as [|j]; cbn in Hj; simplify_eq; cbn [length]; [by rewrite E|]. by rewrite (IH j) by done.
  - rewrite filter_none.
    + cbn. destruct j as [|j]; cbn in Hj; simplify_eq; [by rewrite E|]. destruct (pr (key v)) eqn:Ev; [|done].
      rewrite Forall_lookup in Hf. specialize (Hf _ _ Hj). cbn in Hf. by rewrite (Hm _ _ Hf Ev) in E.
    + eapply Forall_impl; [exact Hf|]. cbn. intros y Hy. destruct (pr (key y)) eqn:Ey; [|done]. by rewrite (Hm _ _ Hy Ey) in E.
Qed.
Lemma lower_lookup k l j v : srt l -> l !! j = Some v -> lt (key v) k = (j <? lower key lt k l).
Proof. intros Hs Hj. apply (filter_lookup (fun x : K => lt x k)); auto. by apply mono_lower. Qed.
Lemma upper_lookup k l j v : srt l -> l !! j = Some v -> lt k (key v) = negb (j <? upper key lt k l).
Proof. intros Hs Hj. unfold upper. rewrite <- (filter_lookup (fun x : K => negb (lt k x)) l j v); auto; [by rewrite negb_involutive|by apply mono_upper]. Qed.
Lemma lower_le k l : lower key lt k l <= length l.
Proof. apply filter_len. Qed.
Lemma upper_le k l : upper key lt k l <= length l.
Proof. apply filter_len. Qed.
Lemma lt_asym a b : lt a b = true -> lt b a = false.
Proof. intros H. destruct (lt b a) eqn:E; [|done]. pose proof (swo_trans _ Hlt _ _ _ H E) as H1. by rewrite (swo_irrefl _ Hlt) in H1. Qed.
Lemma lower_upper k l : lower key lt k l <= upper key lt k l.
Proof.
  unfold lower, upper. induction l as [|x l IH]; cbn; [lia|]. destruct (lt (key x) k) eqn:E1, (lt k (key x)) eqn:E2; cbn; try lia.
  apply lt_asym in E1. congruence.
Qed.
Lemma lower_split k L R : Forall (fun v => lt (key v) k = true) L -> Forall (fun v => lt (key v) k = false) R -> lower key lt k (L ++ R) = length L.
Proof. apply filter_split. Qed.
Lemma upper_split k L R : Forall (fun v => negb (lt k (key v)) = true) L -> Forall (fun v => negb (lt k (key v)) = false) R -> upper key lt k (L ++ R) = length L.
Proof. apply filter_split. Qed.
(** one position per key in a set *)
Lemma unique_upper k l : mu = false -> srt l -> upper key lt k l <= S (lower key lt k l).
Proof.
  intros Hmu Hs. set (a := lower key lt k l). set (u := upper key lt k l). destruct (decide (u <= S a)) as [|Hn]; [done|exfalso].
  pose proof (upper_le k l). destruct (lookup_lt_is_Some_2 l a) as [x Hx]; [lia|]. destruct (lookup_lt_is_Some_2 l (S a)) as [y Hy]; [lia|].
  pose proof (lower_lookup k l _ _ Hs Hx) as H1. pose proof (upper_lookup k l _ _ Hs Hy) as H2. fold a in H1. fold u in H2.
  assert (H3 : lt (key x) (key y) = true). { pose proof Hs as Hs'. rewrite <- (take_drop (S a) l) in Hs'. apply ss_app in Hs' as (_ & _ & Hs'). rewrite Forall_lookup in Hs'.
    specialize (Hs' a x). rewrite lookup_take in Hs' by lia. specialize (Hs' Hx). rewrite Forall_lookup in Hs'. specialize (Hs' 0 y).
    rewrite lookup_drop, Nat.add_0_r in Hs'. specialize (Hs' Hy). cbn in Hs'. by rewrite Hmu in Hs'. }
  destruct (swo_neg _ Hlt _ _ k H3) as [H4|H4]; [rewrite H4 in H1; lia|rewrite H4 in H2; lia].
Qed.
Lemma has_spec k l : srt l -> has key lt k l = (lower key lt k l <? upper key lt k l).
Proof.
  intros Hs. pose proof (upper_le k l). apply eq_true_iff_eq. unfold has. rewrite List.existsb_exists. split.
  - intros (v & Hin & He). apply elem_of_list_In, elem_of_list_lookup in Hin as [j Hj]. unfold equiv in He. apply andb_true_iff in He as [H1 H2].
    rewrite (lower_lookup k l j v) in H1 by auto. rewrite (upper_lookup k l j v) in H2 by auto. lia.
  - intros Hlu. destruct (lookup_lt_is_Some_2 l (lower key lt k l)) as [v Hv]; [lia|]. exists v. split; [apply elem_of_list_In, elem_of_list_lookup; eauto|].
    unfold equiv. rewrite (lower_lookup k l _ v) by eauto. rewrite (upper_lookup k l _ v) by eauto. lia.
Qed.
Lemma sorted_insert i v l : srt l -> lower key lt (key v) l <= i <= upper key lt (key v) l -> (mu = false -> has key lt (key v) l = false) -> srt (insert_at i v l).
Proof.
  intros Hs Hi Hu. pose proof (upper_le (key v) l) as Hle. unfold insert_at.
  assert (Heq : mu = false -> lower key lt (key v) l = i /\ upper key lt (key v) l = i). { intros Hm. specialize (Hu Hm). rewrite has_spec in Hu by done. lia. }
  pose proof Hs as Hs'. rewrite <- (take_drop i l) in Hs'. apply ss_app in Hs' as (H1 & H2 & H3). apply ss_app. split; [done|]. split.
  - constructor; [done|]. apply Forall_lookup. intros j y Hy. rewrite lookup_drop in Hy. unfold rel. destruct mu eqn:Hm.
    + rewrite (lower_lookup (key v) l _ y) by (auto; by rewrite Hm). lia.
    + rewrite (upper_lookup (key v) l _ y) by (auto; by rewrite Hm). specialize (Heq eq_refl). lia.
  - apply Forall_lookup. intros j x Hx. constructor; [|rewrite Forall_lookup in H3; apply (H3 _ _ Hx)].
    apply lookup_take_Some in Hx as [Hx Hji]. unfold rel. destruct mu eqn:Hm.
    + rewrite (upper_lookup (key v) l _ x) by (auto; by rewrite Hm). lia.
    + rewrite (lower_lookup (key v) l _ x) by (auto; by rewrite Hm). specialize (Heq eq_refl). lia.
Qed.
Lemma sorted_remove i n l : srt l -> srt (remove_at i n l).
Proof.
  intros Hs. unfold remove_at. pose proof Hs as Hs'. rewrite <- (take_drop i l) in Hs'. apply ss_app in Hs' as (H1 & H2 & H3).
  rewrite <- drop_drop. apply ss_app. split; [done|]. rewrite <- (take_drop n (drop i l)) in H2. apply ss_app in H2 as (_ & H2 & _). split; [done|].
  eapply Forall_impl; [exact H3|]. cbn. intros x Hx. by apply Forall_drop.
Qed.
Lemma sorted_same_keys l1 l2 : map key l1 = map key l2 -> srt l1 -> srt l2.
Proof.
  intros He Hs. revert l2 He. induction Hs as [|x l1 Hs IH Hf]; intros [|y l2] He; try done; [constructor|]. cbn in He. injection He as H1 H2.
  constructor; [by apply IH|]. rewrite <- H1. clear -Hf H2. revert l2 H2. induction Hf as [|z l1 Hz Hf IH]; intros [|w l2] H2; try done.
  cbn in H2. injection H2 as H2 H3. constructor; [by rewrite <- H2|auto].
Qed.
Lemma length_insert i v l : i <= length l -> length (insert_at i v l) = S (length l).
Proof. intros H. unfold insert_at. rewrite app_length, take_length. cbn. rewrite drop_length. lia. Qed.
Lemma length_remove i n l : i + n <= length l -> length (remove_at i n l) = length l - n.
Proof. intros H. unfold remove_at. rewrite app_length, take_length, drop_length. lia. Qed.
End SpecFacts.
