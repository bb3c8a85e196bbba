(** Linear and binary searches of a node find the lower bound and the upper bound. *)
From stdpp Require Import list.
From Coq Require Import Arith Lia ZifyBool ZifyNat Sorting.Sorted.
From Verif.BTree Require Import Search Spec.
Local Open Scope nat_scope.

Section SearchFacts.
Context {K : Type} (lt : K -> K -> bool) (Hlt : swo lt).
Implicit Types (ks : list K) (k x y : K).
Notation sorted_keys m ks := (sorted (fun x : K => x) lt m ks).

Lemma sorted_lookup m ks i j x y : sorted_keys m ks -> i < j -> ks !! i = Some x -> ks !! j = Some y -> rel lt m x y = true.
Proof.
  intros Hs. revert i j. induction Hs as [|z ks Hs IH Hf]; intros i j Hij Hi Hj; [done|].
  destruct j as [|j]; [lia|]. destruct i as [|i]; cbn in *.
  - simplify_eq. rewrite Forall_lookup in Hf. eauto.
  - apply (IH i j); auto. lia.
Qed.
Lemma rel_weak m x y : rel lt m x y = true -> lt y x = false.
Proof.
  unfold rel. destruct m; intros H; [by apply negb_true_iff in H|].
  destruct (lt y x) eqn:E; [|done]. rewrite <- (swo_irrefl lt Hlt x). symmetry. eapply (swo_trans lt Hlt); eauto.
Qed.
(** what a search returns: p holds of the keys before i and of none from i on *)
Definition partition_point (p : K -> bool) ks (i : nat) : Prop :=
  i <= length ks /\ (forall j x, j < i -> ks !! j = Some x -> p x = true) /\ (forall j x, i <= j -> ks !! j = Some x -> p x = false).
Definition mono (m : bool) (p : K -> bool) : Prop := forall x y, rel lt m x y = true -> p y = true -> p x = true.
Lemma mono_lower m k : mono m (fun x => lt x k).
Proof. intros x y Hr Hp. apply rel_weak in Hr. destruct (swo_neg lt Hlt y k x Hp); congruence. Qed.
Lemma mono_upper m k : mono m (fun x => negb (lt k x)).
Proof.
  intros x y Hr Hp. apply rel_weak in Hr. apply negb_true_iff in Hp. apply negb_true_iff. destruct (lt k x) eqn:E; [|done].
  destruct (swo_neg lt Hlt k x y E); congruence.
Qed.

Lemma linear_bool_spec m comp k ks : mono m (fun x => comp x k) -> sorted_keys m ks -> partition_point (fun x => comp x k) ks (linear_bool comp k ks).
Proof.
  intros Hm Hs. induction Hs as [|x ks Hs IH Hf]; cbn.
  - split; [done|]. split; intros; [lia|]. done.
  - destruct (comp x k) eqn:E.
    + destruct IH as (H1 & H2 & H3). split; [cbn; lia|]. split; intros [|j] y Hj Hy; cbn in *; simplify_eq; auto; try lia.
      * apply (H2 j); auto. lia.
      * apply (H3 j); auto. lia.
    + split; [cbn; lia|]. split; intros j y Hj Hy; [lia|]. destruct j as [|j]; cbn in *; [by simplify_eq|].
      rewrite Forall_lookup in Hf. specialize (Hf _ _ Hy). destruct (comp y k) eqn:E2; [|done]. rewrite <- E. symmetry. eapply (Hm x y); eauto.
Qed.
Lemma binary_bool_gen m comp k ks fuel s e : mono m (fun x => comp x k) -> sorted_keys m ks -> s <= e <= length ks -> e - s <= fuel ->
  (forall j x, j < s -> ks !! j = Some x -> comp x k = true) -> (forall j x, e <= j -> ks !! j = Some x -> comp x k = false) ->
  partition_point (fun x => comp x k) ks (binary_bool comp k ks fuel s e).
Proof.
  intros Hm Hs. revert s e. induction fuel as [|fuel IH]; intros s e Hse Hfu Hl Hr; cbn.
  - assert (s = e) as -> by lia. split; [lia|]. split; auto.
  - destruct (s =? e) eqn:E; [assert (s = e) as -> by lia; split; [lia|]; split; auto|].
    change (fst (Nat.divmod (s + e) 1 0 1)) with ((s + e) / 2).
    assert (Hmid : s <= (s + e) / 2 < e). { split; [apply Nat.div_le_lower_bound; lia | apply Nat.div_lt_upper_bound; lia]. }
    destruct (lookup_lt_is_Some_2 ks ((s + e) / 2)) as [x Hx]; [lia|]. rewrite Hx.
    destruct (comp x k) eqn:Ec.
    + apply IH; auto; try lia. intros j y Hj Hy. destruct (decide (j = (s + e) / 2)) as [->|]; [congruence|].
      apply (Hm y x); auto. eapply (sorted_lookup m ks j ((s + e) / 2)); eauto. lia.
    + apply IH; auto; try lia. intros j y Hj Hy. destruct (decide (j = (s + e) / 2)) as [->|]; [congruence|].
      destruct (comp y k) eqn:E2; [|done]. rewrite <- Ec. symmetry. apply (Hm x y); auto. eapply (sorted_lookup m ks _ j); eauto. lia.
Qed.
Lemma cmp3_spec x k : match cmp3 lt x k with
  | Lt => lt x k = true
  | Gt => lt x k = false /\ lt k x = true
  | Eq => lt x k = false /\ lt k x = false
  end.
Proof. unfold cmp3. destruct (lt x k) eqn:E; [done|]. by destruct (lt k x) eqn:E2. Qed.
(** at i there is a key equivalent to k *)
Definition exact_at k ks (i : nat) (e : bool) : Prop := forall x, ks !! i = Some x -> lt k x = negb e.
Lemma linear_three_spec m k ks : sorted_keys m ks ->
  let '(i, e) := linear_three lt k ks in
  partition_point (fun x => lt x k) ks i /\ exact_at k ks i e /\ (e = true -> i < length ks).
Proof.
  intros Hs. induction Hs as [|x ks Hs IH Hf]; cbn.
  - split; [|split; done]. split; [done|]. split; [intros; lia|done].
  - pose proof (cmp3_spec x k) as Hc. destruct (cmp3 lt x k).
    + destruct Hc as [H1 H2]. split; [|split; [|cbn; lia]].
      * split; [cbn; lia|]. split; intros j y Hj Hy; [lia|]. destruct j; cbn in *; [by simplify_eq|].
        rewrite Forall_lookup in Hf. specialize (Hf _ _ Hy). destruct (lt y k) eqn:E; [|done]. rewrite <- H1. symmetry. eapply (mono_lower m k x y); eauto.
      * intros y Hy. cbn in Hy. simplify_eq. done.
    + destruct (linear_three lt k ks) as [i e]. destruct IH as ((H1 & H2 & H3) & H4 & H5). split; [|split].
      * split; [cbn; lia|]. split; intros [|j] y Hj Hy; cbn in *; simplify_eq; auto; try lia; [apply (H2 j)|apply (H3 j)]; auto; lia.
      * intros y Hy. cbn in Hy. auto.
      * cbn. intros He. specialize (H5 He). lia.
    + destruct Hc as [H1 H2]. split; [|split; [|done]].
      * split; [cbn; lia|]. split; intros j y Hj Hy; [lia|]. destruct j; cbn in *; [by simplify_eq|].
        rewrite Forall_lookup in Hf. specialize (Hf _ _ Hy). destruct (lt y k) eqn:E; [|done]. rewrite <- H1. symmetry. eapply (mono_lower m k x y); eauto.
      * intros y Hy. cbn in Hy. simplify_eq. done.
Qed.
Lemma binary_three_gen m k ks fuel s e ex : sorted_keys m ks -> s <= e <= length ks -> e - s <= fuel ->
  (forall j x, j < s -> ks !! j = Some x -> lt x k = true) -> (forall j x, e <= j -> ks !! j = Some x -> lt x k = false) ->
  exact_at k ks e ex -> (ex = true -> e < length ks) ->
  let '(i, x) := binary_three lt m k ks fuel s e ex in
  partition_point (fun x => lt x k) ks i /\ exact_at k ks i x /\ (x = true -> i < length ks).
Proof.
  intros Hs. revert s e ex. induction fuel as [|fuel IH]; intros s e ex Hse Hfu Hl Hr Hex Hexl; cbn.
  - assert (s = e) as -> by lia. split; [split; [lia|split; auto]|auto].
  - destruct (s =? e) eqn:E; [assert (s = e) as -> by lia; split; [split; [lia|split; auto]|auto]|].
    change (fst (Nat.divmod (s + e) 1 0 1)) with ((s + e) / 2). 
    assert (Hmid : s <= (s + e) / 2 < e). { split; [apply Nat.div_le_lower_bound; lia | apply Nat.div_lt_upper_bound; lia]. }
    destruct (lookup_lt_is_Some_2 ks ((s + e) / 2)) as [x Hx]; [lia|]. rewrite Hx.
    pose proof (cmp3_spec x k) as Hc.
    assert (Hright : lt x k = false -> forall j y, (s + e) / 2 <= j -> ks !! j = Some y -> lt y k = false).
    { intros Hxk j y Hj Hy. destruct (decide (j = (s + e) / 2)) as [->|]; [congruence|].
      destruct (lt y k) eqn:E2; [|done]. rewrite <- Hxk. symmetry. eapply (mono_lower m k x y); auto. eapply (sorted_lookup m ks _ j); eauto. lia. }
    destruct (cmp3 lt x k).
    + destruct Hc as [H1 H2]. destruct m.
      * apply IH; auto; try (by apply Hright); try lia. intros y Hy. rewrite Hx in Hy. by simplify_eq.
      * split; [|split; [|intros; lia]].
        -- split; [lia|]. split; [|by apply Hright]. intros j y Hj Hy. assert (Hyx : rel lt false y x = true) by (eapply (sorted_lookup false ks j); eauto).
           cbn in Hyx. destruct (swo_neg lt Hlt y x k Hyx); [done|congruence].
        -- intros y Hy. rewrite Hx in Hy. by simplify_eq.
    + apply IH; auto; try lia. intros j y Hj Hy. destruct (decide (j = (s + e) / 2)) as [->|]; [congruence|].
      apply (mono_lower m k y x); auto. eapply (sorted_lookup m ks j ((s + e) / 2)); eauto. lia.
    + destruct Hc as [H1 H2]. destruct ex.
      * exfalso. specialize (Hexl eq_refl). destruct (lookup_lt_is_Some_2 ks e) as [y Hy]; [lia|]. specialize (Hex _ Hy). cbn in Hex.
        assert (rel lt m x y = true) as Hxy by (eapply (sorted_lookup m ks ((s + e) / 2) e); eauto; lia).
        apply rel_weak in Hxy. destruct (swo_neg lt Hlt k x y H2); congruence.
      * apply IH; auto; try (by apply Hright); try lia; try done. intros y Hy. rewrite Hx in Hy. by simplify_eq.
Qed.

(** the searches of a node, for every mode *)
Theorem node_lower_spec (m : mode) k ks : sorted_keys (multi m) ks ->
  let '(i, e) := node_lower lt m k ks in
  partition_point (fun x => lt x k) ks i /\
  (if three m then exact_at k ks i e /\ (e = true -> i < length ks) else e = false).
Proof.
  intros Hs. unfold node_lower. destruct (three m) eqn:E3, (linear m).
  - pose proof (linear_three_spec _ k ks Hs) as H. destruct (linear_three lt k ks). tauto.
  - assert (Hr : forall j x, length ks <= j -> ks !! j = Some x -> lt x k = false). { intros j x Hj Hx. apply lookup_lt_Some in Hx. lia. }
    pose proof (binary_three_gen (multi m) k ks (length ks) 0 (length ks) false Hs ltac:(lia) ltac:(lia) ltac:(lia) Hr) as H.
    destruct (binary_three lt (multi m) k ks (length ks) 0 (length ks) false). apply H; [|done].
    intros x Hx. apply lookup_lt_Some in Hx. lia.
  - split; [|done]. eapply linear_bool_spec; eauto using mono_lower.
  - split; [|done]. eapply binary_bool_gen; eauto using mono_lower; try lia. intros j x Hj Hx. apply lookup_lt_Some in Hx. lia.
Qed.
Theorem node_upper_spec (m : mode) k ks : sorted_keys (multi m) ks ->
  let '(i, e) := node_upper lt m k ks in partition_point (fun x => negb (lt k x)) ks i /\ e = false.
Proof.
  intros Hs. unfold node_upper. split; [|done]. destruct (linear m).
  - apply (linear_bool_spec (multi m) (upper_adapter lt)); auto. apply mono_upper.
  - apply (binary_bool_gen (multi m) (upper_adapter lt)); auto; try lia. { apply mono_upper. }
    intros j x Hj Hx. apply lookup_lt_Some in Hx. lia.
Qed.
End SearchFacts.
