(** C41: sorting a soa keeps rows together and is stable. *)
From stdpp Require Import list list_numbers.
From Coq Require Import Lia Sorting.Permutation ZArith.
From Coq Require Import ZifyBool ZifyNat.
From Verif.Common Require Import Res.
From Verif.Misc Require Import Soa.
Open Scope nat_scope.
Open Scope res_scope.

(** ** Specification, in terms of the rows seen through operator[]
    [rows_of s n rs]: the soa has n rows, in order rs. *)
Definition rows_of {V} (s : list (list V)) (rs : list (list V)) : Prop :=
  s <> [] /\ Forall (fun c => length c = length rs) s /\ forall i, i < length rs -> row s i = of_option (rs !! i).
(** [sorted_stably key rs p rs']: rs' lists the rows rs in the order p; keys never decrease and rows
    with equivalent keys keep their order. *)
Definition sorted_stably {V} (col : nat) (comp : V -> V -> bool) (rs : list (list V)) (p : list nat) (rs' : list (list V)) : Prop :=
  Permutation p (seq 0 (length rs)) /\ length rs' = length rs /\
  (forall j i, p !! j = Some i -> rs' !! j = rs !! i) /\
  (forall a b ra rb x y, a < b -> rs' !! a = Some ra -> rs' !! b = Some rb -> ra !! col = Some x -> rb !! col = Some y -> comp y x = false) /\
  (forall a b i j ri rj x y, a < b -> p !! a = Some i -> p !! b = Some j -> rs !! i = Some ri -> rs !! j = Some rj ->
     ri !! col = Some x -> rj !! col = Some y -> comp x y = false -> comp y x = false -> i < j).

Lemma row_some {V} (s : list (list V)) i n : Forall (fun c => length c = n) s -> i < n ->
  exists r, mapM (fun c => c !! i) s = Some r /\ length r = length s /\ forall k c, s !! k = Some c -> r !! k = c !! i.
Proof.
  intros H Hi. induction H as [|c s Hc Hs IH]; cbn.
  - exists []. repeat split. intros k c Hk. discriminate.
  - destruct (lookup_lt_is_Some_2 c i ltac:(lia)) as [x Hx]. rewrite Hx. destruct IH as (r & Er & Lr & Hr). cbn.
    rewrite Er. cbn. exists (x :: r). split; [reflexivity|]. split; [cbn; lia|]. intros [|k] c' Hk; cbn in *; [congruence|]. apply Hr. assumption.
Qed.
Lemma mapM_row_eq {V} (s s' : list (list V)) i j : Forall2 (fun c c' => c' !! j = c !! i) s s' ->
  mapM (fun c => c !! j) s' = mapM (fun c => c !! i) s.
Proof. induction 1 as [|c c' s s' H HF IH]; cbn; [reflexivity|]. rewrite H, IH. reflexivity. Qed.

Lemma sort_with_order {V} (moved : V -> V) (s : list (list V)) rs col c comp p :
  rows_of s rs -> s !! col = Some c -> stable_order comp c p ->
  exists s' rs', reorder_all moved p s = Ok s' /\ rows_of s' rs' /\ sorted_stably col comp rs p rs'.
Proof.
  intros (Hne & HF & Hrow) Hcol [Hp Hs].
  assert (Hc : length c = length rs) by (rewrite Forall_lookup in HF; apply (HF col); assumption).
  rewrite Hc in Hp. assert (Lp : length p = length rs) by (rewrite Hp; apply seq_length).
  destruct (reorder_all_ok moved p s) as (s' & E & H2).
  { rewrite Lp. assumption. }
  { rewrite Lp. assumption. }
  assert (HF' : Forall (fun c => length c = length rs) s').
  { rewrite <- Lp. clear -H2. induction H2 as [|? ? ? ? [? ?]]; constructor; assumption. }
  set (rs' := map (fun i => default [] (rs !! i)) p).
  assert (Ers' : forall j i, p !! j = Some i -> rs' !! j = rs !! i).
  { intros j i Hji. unfold rs'. rewrite list_lookup_fmap, Hji. cbn.
    assert (i < length rs).
    { assert (i ∈ p) by (eapply elem_of_list_lookup_2; eassumption). rewrite Hp, elem_of_seq in H. lia. }
    destruct (lookup_lt_is_Some_2 rs i H) as [r Hr]. rewrite Hr. reflexivity. }
  assert (Lrs' : length rs' = length rs) by (unfold rs'; rewrite map_length; assumption).
  assert (Hpi : forall j i, p !! j = Some i -> i < length rs).
  { intros j i Hji. assert (i ∈ p) by (eapply elem_of_list_lookup_2; eassumption). rewrite Hp, elem_of_seq in H. lia. }
  (* the key of a row is the element of the column *)
  assert (Hkey : forall i r x, rs !! i = Some r -> r !! col = Some x -> c !! i = Some x).
  { intros i r x Hr Hx. assert (Hi : i < length rs) by (eapply lookup_lt_Some; eassumption).
    specialize (Hrow i Hi). unfold row in Hrow. destruct (row_some s i _ HF Hi) as (r' & Er & _ & Hk). rewrite Er, Hr in Hrow.
    injection Hrow as ->. rewrite <- (Hk col c Hcol). assumption. }
  exists s', rs'. split; [exact E|]. split; [|split; [|split; [|split; [|split]]]].
  - split; [|split].
    + intros ->. inversion H2. subst. apply Hne. reflexivity.
    + rewrite Lrs'. assumption.
    + intros j Hj. rewrite Lrs' in Hj. destruct (lookup_lt_is_Some_2 p j ltac:(lia)) as [i Hi].
      rewrite (Ers' j i Hi). rewrite <- (Hrow i (Hpi j i Hi)). unfold row. f_equal. apply mapM_row_eq.
      eapply Forall2_impl; [exact H2|]. intros ? ? [_ H]. apply H. assumption.
  - assumption.
  - assumption.
  - exact Ers'.
  - intros a b ra rb x y Hab Ha Hb Hx Hy.
    assert (La : a < length p) by (rewrite Lp, <- Lrs'; eapply lookup_lt_Some; eassumption).
    assert (Lb : b < length p) by (rewrite Lp, <- Lrs'; eapply lookup_lt_Some; eassumption).
    destruct (lookup_lt_is_Some_2 p a La) as [i Hi]. destruct (lookup_lt_is_Some_2 p b Lb) as [j Hj].
    rewrite (Ers' a i Hi) in Ha. rewrite (Ers' b j Hj) in Hb.
    eapply (Hs a b i j x y); eauto.
  - intros a b i j ri rj x y Hab Hi Hj Hri Hrj Hx Hy E1 E2.
    destruct (Hs a b i j x y) as [_ B]; eauto.
Qed.

(** sort_by_field<col>(comp), for every number of rows and columns, every contents, every column,
    every strict weak order and whatever a moved-from value looks like. *)
Theorem C41_sort {V} (moved : V -> V) (s : list (list V)) rs col comp :
  rows_of s rs -> col < length s -> swo comp ->
  exists s' rs' p, sort_by_field moved col comp s = Ok s' /\ rows_of s' rs' /\ sorted_stably col comp rs p rs'.
Proof.
  intros Hr Hcol Hc. pose proof Hr as (Hne & HF & _).
  destruct (lookup_lt_is_Some_2 s col Hcol) as [c Ec].
  destruct s as [|c0 s0] eqn:Es; [congruence|]. rewrite <- Es in *.
  unfold sort_by_field, soa_size. assert (E0 : s !! 0 = Some c0) by (rewrite Es; reflexivity). rewrite E0. cbn [of_option rbind]. rewrite Ec. cbn [of_option rbind].
  assert (length c0 = length c).
  { rewrite Forall_lookup in HF. rewrite (HF col c Ec). apply (HF 0). rewrite Es. reflexivity. }
  rewrite H. pose proof (stable_sort_contract comp c Hc) as HS.
  destruct (sort_with_order moved s rs col c comp _ Hr Ec HS) as (s' & rs' & E & H1 & H2).
  eexists s', rs', _. split; [exact E|]. split; eassumption.
Qed.
Print Assumptions C41_sort.
(** The same for any other implementation of std::stable_sort that meets its contract. *)
Theorem C41_any_stable_sort {V} (moved : V -> V) (s : list (list V)) rs col c comp p :
  rows_of s rs -> s !! col = Some c -> stable_order comp c p ->
  exists s' rs', reorder_all moved p s = Ok s' /\ rows_of s' rs' /\ sorted_stably col comp rs p rs'.
Proof. apply sort_with_order. Qed.
Print Assumptions C41_any_stable_sort.
(** insert appends one row. *)
Theorem C41_insert {V} (s : list (list V)) rs xs :
  rows_of s rs -> length xs = length s -> rows_of (soa_insert s xs) (rs ++ [xs]).
Proof.
  intros (Hne & HF & Hrow) Hx. split; [|split].
  - destruct s, xs; try discriminate; congruence.
  - rewrite app_length. cbn. unfold soa_insert. clear Hrow Hne. revert xs Hx. induction HF as [|c s Hc Hs IH]; intros [|x xs] Hx; try discriminate; constructor.
    + rewrite app_length. cbn. lia.
    + apply IH. cbn in Hx. lia.
  - rewrite app_length. cbn. intros i Hi. unfold row, soa_insert.
    destruct (decide (i < length rs)) as [Hlt|Hge].
    + rewrite lookup_app_l by assumption. rewrite <- Hrow by assumption. unfold row. f_equal.
      clear Hrow Hne. revert xs Hx. induction HF as [|c s Hc Hs IH]; intros [|x xs] Hx; try discriminate; cbn; [reflexivity|].
      rewrite lookup_app_l by lia. destruct (c !! i); cbn; [|reflexivity]. rewrite IH by (cbn in Hx; lia). reflexivity.
    + rewrite lookup_app_r by lia. replace (i - length rs) with 0 by lia. cbn.
      clear Hrow Hne. assert (mapM (λ c : list V, c !! i) (zip_with (λ (c : list V) (x : V), c ++ [x]) s xs) = Some xs) as ->; [|reflexivity].
      revert xs Hx. induction HF as [|c s Hc Hs IH]; intros [|x xs] Hx; try discriminate; cbn; [reflexivity|].
      rewrite lookup_app_r by lia. replace (i - length c) with 0 by lia. cbn. rewrite IH by (cbn in Hx; lia). reflexivity.
Qed.
Print Assumptions C41_insert.

(** Five rows, three columns; sorting by the middle column. *)
Definition ex_soa : list (list nat) := [[10; 20; 30; 40; 50]; [3; 1; 3; 2; 1]; [7; 7; 8; 8; 9]].
Definition ex_rows : list (list nat) := [[10; 3; 7]; [20; 1; 7]; [30; 3; 8]; [40; 2; 8]; [50; 1; 9]].
Example soa_rows : rows_of ex_soa ex_rows.
Proof.
  split; [discriminate|]. split; [repeat constructor|]. cbn. intros i Hi.
  do 5 (destruct i as [|i]; [reflexivity|]). lia.
Qed.
Example soa_swo : swo Nat.ltb.
Proof. repeat split; intros; lia. Qed.
Example soa_sorted : sort_by_field (fun _ => 99) 1 Nat.ltb ex_soa = Ok [[20; 50; 40; 10; 30]; [1; 1; 2; 3; 3]; [7; 9; 8; 7; 8]].
Proof. reflexivity. Qed.
