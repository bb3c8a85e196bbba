(** C41: soa (structure of arrays), soa.hpp. *)
From stdpp Require Import list list_numbers.
From Coq Require Import Lia Sorting.Permutation Sorting.Sorted.
From Coq Require Import ZifyBool ZifyNat.
From Verif.Common Require Import Res.
Open Scope nat_scope.
Open Scope res_scope.

(** ** Model
    The columns of a soa<Ts...> are vectors of possibly different types; the model uses one value
    type V for all of them.  A column is a list, a soa the list of its columns.  [moved v] is the
    value left behind by a move from v. *)
Section Soa.
  Context {V : Type} (moved : V -> V).
  Implicit Types (c : list V) (o : list nat) (done : list bool) (s : list (list V)).

  (* soa.hpp:66 size(): the length of column 0 (a soa has at least one column) *)
  Definition soa_size s : res nat := let* c := of_option (s !! 0) in Ok (length c).
  (* soa.hpp:75-81 operator[]: the tuple of the idx-th elements *)
  Definition row s (idx : nat) : res (list V) := of_option (mapM (fun c => c !! idx) s).
  (* soa.hpp:70-73, 156-159 insert: push_back on every column *)
  Definition soa_insert s (xs : list V) : list (list V) := zip_with (fun c x => c ++ [x]) s xs.
  (* soa.hpp:93-95 clear *)
  Definition soa_clear s : list (list V) := map (fun _ => []) s.

  (* soa.hpp:190-199: the do ... while loop of reorder; [i] the start of the cycle, [ci] the value
     taken out of it *)
  Fixpoint cycle (fuel : nat) o (i : nat) (ci : V) (c : list V) done (curidx : nat) : res (list V * list bool) :=
    match fuel with
    | O => Loop
    | S f =>
      let* _ := of_option (done !! curidx) in
      let done := <[curidx := true]> done in
      let* oc := of_option (o !! curidx) in
      let* _ := of_option (c !! curidx) in
      if oc =? i then Ok (<[curidx := ci]> c, done)
      else
        let* v := of_option (c !! oc) in
        let c := <[curidx := v]> (<[oc := moved v]> c) in
        let* oc' := of_option (o !! oc) in
        if oc' =? oc then Ok (c, done) else cycle f o i ci c done oc
    end.
  (* soa.hpp:185-201: the for loop of reorder; [is] the values of i still to come *)
  Fixpoint reorder_loop o (is : list nat) (c : list V) done : res (list V) :=
    match is with
    | [] => Ok c
    | i :: is' =>
      let* d := of_option (done !! i) in
      if (d : bool) then reorder_loop o is' c done
      else
        let* ci := of_option (c !! i) in
        let c := <[i := moved ci]> c in
        let* (c, done) := cycle (S (length o)) o i ci c done i in
        reorder_loop o is' c done
    end.
  (* soa.hpp:179-202 reorder; [done] is the bit vector of sort_tmp, resized to the number of rows
     and reset (see C25 for resize and reset) *)
  Definition reorder o (c : list V) : res (list V) :=
    reorder_loop o (seq 0 (length o)) c (repeat false (length o)).
  (* soa.hpp:105-121, 171-174: sort_by_field once std::stable_sort has computed the order o *)
  Fixpoint reorder_all o s : res (list (list V)) :=
    match s with
    | [] => Ok []
    | c :: s' => let* c := reorder o c in let* s' := reorder_all o s' in Ok (c :: s')
    end.

  (** std::stable_sort (library) on the indices 0 .. n-1 with [comp_wrapper]; its contract: *)
  Definition stable_order (comp : V -> V -> bool) (col : list V) (o : list nat) : Prop :=
    Permutation o (seq 0 (length col)) /\
    forall a b i j x y, a < b -> o !! a = Some i -> o !! b = Some j -> col !! i = Some x -> col !! j = Some y ->
      comp y x = false /\ (comp x y = false -> i < j).
  (** an implementation of it: insertion of each index after those that are not greater *)
  Fixpoint ins (lt : nat -> nat -> bool) (i : nat) (l : list nat) : list nat :=
    match l with
    | [] => [i]
    | j :: l' => if lt i j then i :: l else j :: ins lt i l'
    end.
  Definition stable_sort (lt : nat -> nat -> bool) (l : list nat) : list nat :=
    fold_left (fun acc i => ins lt i acc) l [].
  Definition comp_wrapper (comp : V -> V -> bool) (col : list V) (a b : nat) : bool :=
    match col !! a, col !! b with Some x, Some y => comp x y | _, _ => false end.

  (* soa.hpp:105-121 sort_by_field<col_idx>(comp) *)
  Definition sort_by_field (col_idx : nat) (comp : V -> V -> bool) s : res (list (list V)) :=
    let* n := soa_size s in
    let* col := of_option (s !! col_idx) in
    reorder_all (stable_sort (comp_wrapper comp col) (seq 0 n)) s.

  (** ** reorder applies the permutation *)
  Section Reorder.
    Context (o : list nat) (c0 : list V).
    Hypothesis Ho : Permutation o (seq 0 (length o)).
    Hypothesis Hlen : length c0 = length o.
    Notation n := (length o).

    Lemma o_in j : j < n -> exists k, o !! j = Some k /\ k < n.
    Proof using Ho.
      intros Hj. destruct (lookup_lt_is_Some_2 o j Hj) as [k Hk]. exists k. split; [assumption|].
      assert (k ∈ o) by (eapply elem_of_list_lookup_2; eassumption).
      rewrite Ho, elem_of_seq in H. clear -H. lia.
    Qed.
    Lemma o_inj j k i : o !! j = Some i -> o !! k = Some i -> j = k.
    Proof using Ho.
      intros Hj Hk. assert (NoDup o) by (rewrite Ho; apply NoDup_seq).
      eapply NoDup_lookup; eassumption.
    Qed.
    Definition dn (done : list bool) (j : nat) : Prop := done !! j = Some true.
    Definition nd (done : list bool) (j : nat) : Prop := done !! j = Some false.

    (** between two cycles *)
    Record outer (c : list V) (done : list bool) : Prop := {
      ou_lc : length c = n;
      ou_ld : length done = n;
      ou_done : forall j k, dn done j -> o !! j = Some k -> c !! j = c0 !! k /\ dn done k;
      ou_pred : forall k, dn done k -> exists j, dn done j /\ o !! j = Some k;
      ou_rest : forall j, nd done j -> c !! j = c0 !! j
    }.
    (** inside a cycle *)
    Record inner (i : nat) (c : list V) (done : list bool) (cur : nat) : Prop := {
      in_lc : length c = n;
      in_ld : length done = n;
      in_i : i < n;
      in_cur : nd done cur;
      in_first : dn done i \/ i = cur;
      in_done : forall j k, dn done j -> o !! j = Some k -> c !! j = c0 !! k /\ (dn done k \/ k = cur);
      in_pred : forall k, dn done k -> k <> i -> exists j, dn done j /\ o !! j = Some k;
      in_curpred : cur = i \/ exists j, dn done j /\ o !! j = Some cur;
      in_rest : forall j, nd done j -> j <> cur -> c !! j = c0 !! j
    }.
    Definition todo (done : list bool) : nat := length (List.filter negb done).
    Lemma todo_set done j : nd done j -> S (todo (<[j := true]> done)) = todo done.
    Proof using.
      unfold nd, todo. revert j. induction done as [|b done IH]; intros [|j] H; cbn in *; try discriminate.
      - injection H as ->. reflexivity.
      - destruct b; cbn; rewrite <- (IH j H); reflexivity.
    Qed.
    Lemma bool_cases done j : j < length done -> dn done j \/ nd done j.
    Proof using.
      intros H. destruct (lookup_lt_is_Some_2 done j H) as [[|] E]; [left|right]; exact E.
    Qed.
    Lemma dn_set done j k : nd done j -> dn (<[j := true]> done) k <-> dn done k \/ k = j.
    Proof using.
      intros H. unfold dn, nd in *. assert (j < length done) by (eapply lookup_lt_Some; eassumption).
      destruct (decide (k = j)) as [->|Hne].
      - rewrite list_lookup_insert by assumption. tauto.
      - rewrite list_lookup_insert_ne by congruence. tauto.
    Qed.
    Lemma nd_set done j k : nd done j -> nd (<[j := true]> done) k <-> nd done k /\ k <> j.
    Proof using.
      intros H. unfold dn, nd in *. assert (j < length done) by (eapply lookup_lt_Some; eassumption).
      destruct (decide (k = j)) as [->|Hne].
      - rewrite list_lookup_insert by assumption. split; [discriminate|]. tauto.
      - rewrite list_lookup_insert_ne by congruence. tauto.
    Qed.
    Lemma dn_nd done j : dn done j -> nd done j -> False.
    Proof using. unfold dn, nd. congruence. Qed.

    Lemma cycle_ok fuel : forall i ci c done cur, inner i c done cur -> c0 !! i = Some ci ->
      todo done < fuel ->
      exists c' done', cycle fuel o i ci c done cur = Ok (c', done') /\ outer c' done' /\ dn done' i /\
        (forall j, dn done j -> dn done' j).
    Proof using Ho Hlen.
      induction fuel as [|f IH]; intros i ci c done cur HI Hci Hf; [lia|]. cbn [cycle].
      destruct HI as [Hlc Hld Hi Hcur Hfirst Hdone Hpred Hcp Hrest].
      assert (Hcn : cur < n) by (rewrite <- Hld; eapply lookup_lt_Some; exact Hcur).
      destruct (o_in cur Hcn) as (oc & Eoc & Hocn).
      rewrite Hcur. cbn [of_option rbind]. rewrite Eoc. cbn [of_option rbind].
      destruct (lookup_lt_is_Some_2 c cur ltac:(lia)) as [vc Evc]. rewrite Evc. cbn [of_option rbind].
      destruct (Nat.eqb_spec oc i) as [->|Hoc].
      - eexists _, _. split; [reflexivity|]. split; [|split].
        + split.
          * rewrite insert_length. assumption.
          * rewrite insert_length. assumption.
          * intros j k Hj Hk. rewrite dn_set in Hj by assumption. rewrite dn_set by assumption.
            destruct (decide (j = cur)) as [->|Hne].
            -- rewrite list_lookup_insert by lia. assert (k = i) by congruence. subst k. split; [congruence|].
               destruct Hfirst; [left|right]; assumption.
            -- destruct Hj as [Hj|Hj]; [|congruence]. rewrite list_lookup_insert_ne by congruence.
               destruct (Hdone j k Hj Hk) as [A B]. split; [exact A|]. exact B.
          * intros k Hk. rewrite dn_set in Hk by assumption.
            destruct (decide (k = i)) as [->|Hki].
            -- exists cur. rewrite dn_set by assumption. split; [right; reflexivity|assumption].
            -- destruct Hk as [Hk|Hk].
               ++ destruct (Hpred k Hk Hki) as (j & Hj & Ej). exists j. rewrite dn_set by assumption. split; [left|]; assumption.
               ++ subst k. destruct Hcp as [->|(j & Hj & Ej)]; [congruence|]. exists j. rewrite dn_set by assumption. split; [left|]; assumption.
          * intros j Hj. rewrite nd_set in Hj by assumption. destruct Hj as [Hj Hne].
            rewrite list_lookup_insert_ne by congruence. apply Hrest; assumption.
        + rewrite dn_set by assumption. destruct Hfirst; [left|right]; assumption.
        + intros j Hj. rewrite dn_set by assumption. left. assumption.
      - (* the next index is not yet done *)
        assert (Hne : oc <> cur).
        { intros ->. destruct Hcp as [->|(j & Hj & Ej)]; [congruence|].
          assert (j = cur) by (eapply o_inj; eassumption). subst j. eapply dn_nd; eassumption. }
        assert (Hnd : nd done oc).
        { destruct (bool_cases done oc ltac:(lia)) as [Hd|Hd]; [|assumption].
          destruct (Hpred oc Hd Hoc) as (j & Hj & Ej). assert (j = cur) by (eapply o_inj; eassumption). subst j.
          exfalso. eapply dn_nd; eassumption. }
        assert (Eoc0 : c !! oc = c0 !! oc) by (apply Hrest; assumption).
        destruct (lookup_lt_is_Some_2 c oc ltac:(lia)) as [v Ev]. rewrite Ev. cbn [of_option rbind].
        destruct (o_in oc Hocn) as (oc' & Eoc' & Hoc'n). rewrite Eoc'. cbn [of_option rbind].
        destruct (Nat.eqb_spec oc' oc) as [->|Hself].
        { exfalso. apply Hne. eapply o_inj; eassumption. }
        destruct (IH i ci (<[cur := v]> (<[oc := moved v]> c)) (<[cur := true]> done) oc) as (c' & done' & E & HO & HD & HM).
        + split.
          * rewrite !insert_length. assumption.
          * rewrite insert_length. assumption.
          * assumption.
          * apply nd_set; [assumption|]. split; assumption.
          * left. apply dn_set; [assumption|]. destruct Hfirst; [left|right]; assumption.
          * intros j k Hj Hk. rewrite dn_set in Hj by assumption. rewrite dn_set by assumption.
            destruct (decide (j = cur)) as [->|Hjc].
            -- rewrite list_lookup_insert by (rewrite insert_length; lia). assert (k = oc) by congruence. subst k.
               split; [congruence|]. right. reflexivity.
            -- destruct Hj as [Hj|Hj]; [|congruence]. rewrite list_lookup_insert_ne by congruence.
               rewrite list_lookup_insert_ne by (intros ->; eapply dn_nd; eassumption).
               destruct (Hdone j k Hj Hk) as [A B]. split; [exact A|]. left. exact B.
          * intros k Hk Hki. rewrite dn_set in Hk by assumption. destruct Hk as [Hk|Hk].
            -- destruct (Hpred k Hk Hki) as (j & Hj & Ej). exists j. rewrite dn_set by assumption. split; [left|]; assumption.
            -- subst k. destruct Hcp as [->|(j & Hj & Ej)]; [congruence|]. exists j. rewrite dn_set by assumption. split; [left|]; assumption.
          * right. exists cur. split; [apply dn_set; [assumption|right; reflexivity]|assumption].
          * intros j Hj Hjc. rewrite nd_set in Hj by assumption. destruct Hj as [Hj Hjn].
            rewrite !list_lookup_insert_ne by congruence. apply Hrest; assumption.
        + assumption.
        + rewrite <- (todo_set done cur Hcur) in Hf. lia.
        + exists c', done'. split; [exact E|]. split; [exact HO|]. split; [exact HD|].
          intros j Hj. apply HM. apply dn_set; [assumption|]. left. assumption.
    Qed.

    Lemma todo_le done : todo done <= length done.
    Proof using. clear. unfold todo. induction done as [|[|] done IH]; cbn; lia. Qed.
    Lemma reorder_loop_ok is : forall c done, outer c done -> Forall (fun i => i < n) is ->
      exists c', reorder_loop o is c done = Ok c' /\ exists done', outer c' done' /\
        (forall j, dn done j -> dn done' j) /\ (forall i, i ∈ is -> dn done' i).
    Proof using Ho Hlen.
      induction is as [|i is IH]; intros c done HO Hi; cbn [reorder_loop].
      - exists c. split; [reflexivity|]. exists done. split; [assumption|]. split; [auto|].
        intros i Hin. apply elem_of_nil in Hin. contradiction.
      - apply Forall_cons in Hi. destruct Hi as [Hin Hi].
        pose proof HO as [Hlc Hld Hdone Hpred Hrest].
        destruct (bool_cases done i ltac:(lia)) as [Hd|Hd].
        + rewrite Hd. cbn [of_option rbind]. destruct (IH c done HO Hi) as (c' & E & done' & HO' & HM & HA).
          exists c'. split; [exact E|]. exists done'. split; [assumption|]. split; [assumption|].
          intros k Hk. apply elem_of_cons in Hk. destruct Hk as [->|Hk]; [apply HM; assumption|apply HA; assumption].
        + rewrite Hd. cbn [of_option rbind]. pose proof (Hrest i Hd) as Eci.
          destruct (lookup_lt_is_Some_2 c i ltac:(lia)) as [ci Hci]. rewrite Hci. cbn [of_option rbind].
          destruct (cycle_ok (S n) i ci (<[i := moved ci]> c) done i) as (c1 & done1 & E1 & HO1 & HD1 & HM1).
          { split.
            - rewrite insert_length. assumption.
            - assumption.
            - assumption.
            - assumption.
            - right. reflexivity.
            - intros j k Hj Hk. rewrite list_lookup_insert_ne by (intros ->; eapply dn_nd; eassumption).
              destruct (Hdone j k Hj Hk). split; [assumption|]. left. assumption.
            - intros k Hk _. apply Hpred. assumption.
            - left. reflexivity.
            - intros j Hj Hji. rewrite list_lookup_insert_ne by congruence. apply Hrest. assumption. }
          { congruence. }
          { pose proof (todo_le done). lia. }
          rewrite E1. cbn [rbind]. destruct (IH c1 done1 HO1 Hi) as (c' & E & done' & HO' & HM & HA).
          exists c'. split; [exact E|]. exists done'. split; [assumption|]. split; [auto|].
          intros k Hk. apply elem_of_cons in Hk. destruct Hk as [->|Hk]; [apply HM; assumption|apply HA; assumption].
    Qed.
    Lemma reorder_ok : exists c', reorder o c0 = Ok c' /\ length c' = n /\
      forall j k, o !! j = Some k -> c' !! j = c0 !! k.
    Proof using Ho Hlen.
      unfold reorder. destruct (reorder_loop_ok (seq 0 n) c0 (repeat false n)) as (c' & E & done' & HO & _ & HA).
      - split; [assumption|apply repeat_length| | |].
        + intros j k Hj. exfalso. unfold dn in Hj. apply elem_of_list_lookup_2 in Hj. apply elem_of_list_In, repeat_spec in Hj. discriminate.
        + intros k Hj. exfalso. unfold dn in Hj. apply elem_of_list_lookup_2 in Hj. apply elem_of_list_In, repeat_spec in Hj. discriminate.
        + intros. reflexivity.
      - apply Forall_forall. intros x Hx. apply elem_of_seq in Hx. lia.
      - exists c'. split; [exact E|]. destruct HO as [Hlc Hld Hdone _ _]. split; [assumption|].
        intros j k Hk. apply (Hdone j k); [|assumption]. apply HA, elem_of_seq.
        apply lookup_lt_Some in Hk. lia.
    Qed.
  End Reorder.

  Lemma reorder_all_ok o s : Permutation o (seq 0 (length o)) -> Forall (fun c => length c = length o) s ->
    exists s', reorder_all o s = Ok s' /\
      Forall2 (fun c c' => length c' = length o /\ forall j k, o !! j = Some k -> c' !! j = c !! k) s s'.
  Proof using.
    intros Ho. induction 1 as [|c s Hc Hs IH]; cbn [reorder_all].
    - exists []. split; [reflexivity|constructor].
    - destruct (reorder_ok o c Ho Hc) as (c' & E & L & H). rewrite E. cbn [rbind].
      destruct IH as (s' & E' & H'). rewrite E'. cbn [rbind]. exists (c' :: s'). split; [reflexivity|].
      constructor; [split; assumption|assumption].
  Qed.

  (** ** The insertion sort meets the contract of std::stable_sort for strict weak orders *)
  Definition swo (comp : V -> V -> bool) : Prop :=
    (forall x, comp x x = false) /\
    (forall x y z, comp x y = true -> comp y z = true -> comp x z = true) /\
    (forall x y z, comp x y = false -> comp y z = false -> comp x z = false).

  Lemma ins_perm lt i l : Permutation (ins lt i l) (i :: l).
  Proof using.
    induction l as [|j l IH]; cbn [ins]; [reflexivity|]. destruct (lt i j); [reflexivity|].
    rewrite IH. apply Permutation_swap.
  Qed.
  Lemma sort_perm lt l : forall acc, Permutation (fold_left (fun acc i => ins lt i acc) l acc) (l ++ acc).
  Proof using.
    induction l as [|i l IH]; intros acc; cbn [fold_left]; [reflexivity|].
    rewrite IH, ins_perm. cbn [app]. symmetry. apply Permutation_middle.
  Qed.
  (** sortedness: every earlier element is not greater, and smaller as an index when equivalent *)
  Definition le2 (lt : nat -> nat -> bool) (i j : nat) : Prop := lt j i = false /\ (lt i j = false -> i < j).
  Lemma ins_elem lt i l x : x ∈ ins lt i l <-> x = i \/ x ∈ l.
  Proof using. rewrite ins_perm, elem_of_cons. reflexivity. Qed.
  Lemma ins_sorted lt i l : (forall x, lt x x = false) ->
    (forall x y z, lt x y = true -> lt y z = true -> lt x z = true) ->
    (forall x y z, lt x y = false -> lt y z = false -> lt x z = false) ->
    StronglySorted (le2 lt) l -> Forall (fun j => j < i) l -> StronglySorted (le2 lt) (ins lt i l).
  Proof using.
    intros Irr Tr Ntr. induction 1 as [|j l Hs IH Hj]; intros Hi; cbn [ins]; [repeat constructor|].
    apply Forall_cons in Hi. destruct Hi as [Hji Hi].
    assert (As : forall x y, lt x y = true -> lt y x = false).
    { intros x y Hxy. destruct (lt y x) eqn:E; [|reflexivity]. pose proof (Tr _ _ _ Hxy E). congruence. }
    destruct (lt i j) eqn:E.
    - constructor; [constructor; assumption|]. apply Forall_cons. split.
      + split; [apply As; assumption|congruence].
      + apply Forall_forall. intros k Hk. rewrite Forall_forall in Hj. destruct (Hj k Hk) as [A B].
        assert (lt i k = true).
        { destruct (lt i k) eqn:Eik; [reflexivity|]. pose proof (Ntr _ _ _ Eik A). congruence. }
        split; [apply As; assumption|congruence].
    - constructor; [apply IH; assumption|]. apply Forall_forall. intros k Hk. apply ins_elem in Hk.
      destruct Hk as [->|Hk]; [|rewrite Forall_forall in Hj; apply Hj; assumption].
      split; [assumption|]. intros _. assumption.
  Qed.
  Lemma sort_sorted lt : (forall x, lt x x = false) ->
    (forall x y z, lt x y = true -> lt y z = true -> lt x z = true) ->
    (forall x y z, lt x y = false -> lt y z = false -> lt x z = false) ->
    forall m k acc, StronglySorted (le2 lt) acc -> Forall (fun j => j < k) acc ->
    StronglySorted (le2 lt) (fold_left (fun acc i => ins lt i acc) (seq k m) acc).
  Proof using.
    intros Irr Tr Ntr m. induction m as [|m IH]; intros k acc Hs Hk; cbn [seq fold_left]; [assumption|].
    apply IH; [apply ins_sorted; assumption|]. apply Forall_forall. intros x Hx. apply ins_elem in Hx.
    destruct Hx as [->|Hx]; [lia|]. rewrite Forall_forall in Hk. specialize (Hk x Hx). cbn in Hk. lia.
  Qed.
  Lemma sorted_lookup (R : nat -> nat -> Prop) (l : list nat) : StronglySorted R l ->
    forall a b i j, a < b -> l !! a = Some i -> l !! b = Some j -> R i j.
  Proof using.
    induction 1 as [|x l Hs IH Hx]; intros a b i j Hab Ha Hb; [discriminate|].
    destruct b as [|b]; [lia|]. cbn in Hb. destruct a as [|a]; cbn in Ha.
    - injection Ha as ->. rewrite Forall_forall in Hx. apply Hx. eapply elem_of_list_lookup_2. exact Hb.
    - eapply IH; [|eassumption..]. lia.
  Qed.
  Lemma stable_sort_contract comp col : swo comp ->
    stable_order comp col (stable_sort (comp_wrapper comp col) (seq 0 (length col))).
  Proof using V. clear moved.
    intros (Irr & Tr & Ntr). split.
    - unfold stable_sort. rewrite sort_perm, app_nil_r. reflexivity.
    - intros a b i j x y Hab Hi Hj Hx Hy.
      (* the wrapper is only transitive on valid indices: use a total extension *)
      set (lt' := fun a b => match col !! a, col !! b with
                            | Some x, Some y => comp x y
                            | Some _, None => true
                            | None, _ => false end).
      assert (E : forall m k acc, k + m <= length col -> Forall (fun j => j < length col) acc ->
        fold_left (fun acc i => ins (comp_wrapper comp col) i acc) (seq k m) acc = fold_left (fun acc i => ins lt' i acc) (seq k m) acc).
      { assert (EI : forall i acc, i < length col -> Forall (fun j => j < length col) acc -> ins (comp_wrapper comp col) i acc = ins lt' i acc).
        { intros i0 acc Hi0. induction 1 as [|j0 acc Hj0 Hacc IHacc]; cbn [ins]; [reflexivity|].
          rewrite IHacc. unfold comp_wrapper, lt'.
          destruct (lookup_lt_is_Some_2 col i0 Hi0) as [? ->]. destruct (lookup_lt_is_Some_2 col j0 Hj0) as [? ->]. reflexivity. }
        induction m as [|m IH]; intros k acc Hk Hacc; cbn [seq fold_left]; [reflexivity|].
        rewrite EI by (assumption || lia). apply IH; [lia|]. apply Forall_forall. intros z Hz. apply ins_elem in Hz.
        destruct Hz as [->|Hz]; [lia|]. rewrite Forall_forall in Hacc. apply Hacc. assumption. }
      unfold stable_sort in Hi, Hj. rewrite E in Hi by (try lia; constructor). rewrite E in Hj by (try lia; constructor).
      assert (S : StronglySorted (le2 lt') (fold_left (fun acc i => ins lt' i acc) (seq 0 (length col)) [])).
      { apply sort_sorted.
        - intros z. unfold lt'. destruct (col !! z); [apply Irr|reflexivity].
        - intros u v w. unfold lt'. destruct (col !! u), (col !! v), (col !! w); try discriminate; try reflexivity. apply Tr.
        - intros u v w. unfold lt'. destruct (col !! u), (col !! v), (col !! w); try discriminate; try reflexivity. apply Ntr.
        - constructor.
        - constructor. }
      destruct (sorted_lookup _ _ S a b i j Hab Hi Hj) as [A B]. unfold lt' in A, B. rewrite Hx, Hy in A, B. split; assumption.
  Qed.
End Soa.
