(** Property C75: insertion of a range of input iterators into a gtl::vector.
    [ireach w] are the worlds that programs over any number of vectors arrive at, with exceptions anywhere, when they also
    insert ranges of input iterators. *)
From stdpp Require Import gmap list infinite fin_map_dom.
From Coq Require Import NArith Lia ZifyBool ZifyNat ZifyN.
From Verif.Vec Require Import Model Wp Ranges Segs Ops1 Ops2 Ops3 Ops4 Ops5 Machine Refine PropsVec WitnessVec InputInsert.
Local Open Scope nat_scope.

Section Props.
Context {V : Type} (tr : traits) (moved : V -> V) (dflt : V).
Notation exec := (exec tr moved dflt).
Notation Inv := (Inv (V := V) tr).

(** The calls of C37, and insert(pos, first, last) of input iterators that deliver [zs], as rvalues or not.
    Register [q], which is empty, is the local vector of the call. *)
Inductive iop := Plain (o : @op V) | InsertInput (r q pos : nat) (zs : list V) (mv : bool).
Definition iexec (o : iop) : @M V obs :=
  match o with Plain o => exec o | InsertInput r q pos zs mv => pos_of (insert_input tr moved r q pos zs mv) end.
(** specification *)
Definition ispec (o : iop) (L : list (list V)) : option (obs * list (list V)) :=
  match o with
  | Plain o => spec dflt o L
  | InsertInput r _ pos zs _ => xs ← L !! r; Some (OPos pos, <[r := take pos xs ++ zs ++ drop pos xs]> L)
  end.
Definition ipre (o : iop) (L : list (list V)) : Prop :=
  match o with
  | Plain o => pre tr dflt o L
  | InsertInput r q pos zs _ => r <> q /\ L !! q = Some [] /\ exists xs, L !! r = Some xs /\ pos <= length xs /\ fits64 tr (length xs + length zs)
  end.
(** what a call that throws may have changed: only the destination; there the elements before the position are kept.  The elements
    behind it are kept but for some that are moved from, or they are gone, and some of the new elements are there. *)
Definition after_move (x : V) : V := if t_triv tr then x else moved x.
Definition ithrown (o : iop) (L L' : list (list V)) : Prop :=
  match o with
  | Plain o => after_throw tr o L L'
  | InsertInput r _ pos zs _ =>
      exists xs ys, L !! r = Some xs /\ L' = <[r := ys]> L /\
        ((exists k, pos + k <= length xs /\ ys = take pos xs ++ map after_move (take k (drop pos xs)) ++ drop (pos + k) xs) \/
         (restorable tr = true -> exists k, k <= length zs /\ ys = take pos xs ++ take k zs))
  end.
Inductive ireach : @world V -> Prop :=
| ireach_start k orc : ireach (start k orc)
| ireach_ret w o x w' : ireach w -> ipre o (view w) -> iexec o w = Ret x w' -> ireach w'
| ireach_thr w o w' : ireach w -> ipre o (view w) -> iexec o w = Thr w' -> ireach w'.

Lemma istep_ok o h rg L : machine64 tr -> Inv h rg L -> ipre o L ->
  wp (iexec o) (fun x h' rg' => exists L', ispec o L = Some (x, L') /\ Inv h' rg' L') (fun h' rg' => exists L', ithrown o L L' /\ Inv h' rg' L') h rg.
Proof.
  intros Hm HI Hp. destruct o as [o|r q pos zs mv]; cbn [iexec ispec ipre ithrown] in *; [apply step_ok; assumption|].
  destruct Hp as (Hne & Hq & xs & Hx & Hpos & Hf). apply (wp_pos tr moved dflt). eapply wp_mono; [apply (wp_insert_input tr moved r q pos zs mv xs); eassumption| |]; cbn beta.
  - intros n h' rg' [-> HI']. eexists. split; [|exact HI']. rewrite Hx. reflexivity.
  - intros h' rg' (ys & Hy & HI'). eexists. split; [|exact HI']. exists xs, ys. split; [exact Hx|]. split; [reflexivity|]. destruct Hy as [(k & Hk & ->)|Hy]; [left|right; exact Hy].
    exists k. rewrite drop_length in Hk. split; [lia|]. rewrite drop_drop. f_equal.
Qed.
Lemma ireach_inv w : machine64 tr -> ireach w -> Inv (w_heap w) (w_regs w) (view w).
Proof.
  intros Hm. induction 1 as [k orc|w o x w' HR IH Hp E|w o w' HR IH Hp E].
  - rewrite (view_inv tr (start k orc) (replicate k [])); apply Inv_init.
  - pose proof (wp_world _ _ _ _ (istep_ok o _ _ _ Hm IH Hp)) as H. rewrite E in H. destruct H as (L' & _ & H). rewrite (view_inv tr _ _ H). assumption.
  - pose proof (wp_world _ _ _ _ (istep_ok o _ _ _ Hm IH Hp)) as H. rewrite E in H. destruct H as (L' & _ & H). rewrite (view_inv tr _ _ H). assumption.
Qed.
(** C75: in every such program no call touches an object that is not alive or memory that is not allocated; a call that returns has done
    what it should; a call that throws has changed no more than said above. *)
Theorem C75_programs w o : machine64 tr -> ireach w -> ipre o (view w) ->
  iexec o w <> Wrong /\ (forall x w', iexec o w = Ret x w' -> ispec o (view w) = Some (x, view w')) /\ (forall w', iexec o w = Thr w' -> ithrown o (view w) (view w')).
Proof.
  intros Hm HR Hp. pose proof (wp_world _ _ _ _ (istep_ok o _ _ _ Hm (ireach_inv _ Hm HR) Hp)) as H.
  destruct (iexec o w) as [x w'|w'|]; [| |destruct H]; destruct H as (L' & H1 & H2); rewrite <- (view_inv tr _ _ H2) in H1; (split; [discriminate|]); split; try discriminate.
  - intros x1 w1 [= <- <-]. exact H1.
  - intros w1 [= <-]. exact H1.
Qed.
(** Insertion of input iterators by itself *)
Corollary C75_insert_input w r q pos zs mv xs : machine64 tr -> ireach w -> view w !! r = Some xs -> view w !! q = Some [] -> r <> q -> pos <= length xs -> fits64 tr (length xs + length zs) ->
  match iexec (InsertInput r q pos zs mv) w with
  | Ret x w' => x = OPos pos /\ view w' = <[r := take pos xs ++ zs ++ drop pos xs]> (view w)
  | Thr w' => exists ys, view w' = <[r := ys]> (view w) /\ (restorable tr = true -> take pos ys = take pos xs)
  | Wrong => False
  end.
Proof.
  intros Hm HR Hx Hq Hne Hpos Hf. assert (Hp : ipre (InsertInput r q pos zs mv) (view w)) by (cbn [ipre]; eauto 8).
  destruct (C75_programs w _ Hm HR Hp) as (H1 & H2 & H3). destruct (iexec _ w) as [x w'|w'|].
  - specialize (H2 _ _ eq_refl). cbn [ispec] in H2. rewrite Hx in H2. injection H2 as <- <-. auto.
  - destruct (H3 _ eq_refl) as (xs' & ys & Hx' & Hv & Hy). assert (xs' = xs) as -> by congruence. exists ys. split; [exact Hv|]. intros Hs.
    assert (Lt : length (take pos xs) = pos) by (rewrite take_length; lia).
    destruct Hy as [(k & _ & ->)|Hy]; [apply take_app_alt; symmetry; exact Lt|]. destruct (Hy Hs) as (k & _ & ->). apply take_app_alt. symmetry. exact Lt.
  - congruence.
Qed.
(** No memory leaks: every block of memory belongs to exactly one vector, and its live objects are the elements of that vector. *)
Theorem C75_no_leak w : machine64 tr -> ireach w ->
  (forall b cs, w_heap w !! b = Some cs -> exists r v xs, w_regs w !! r = Some v /\ v_blk v = Some b /\ view w !! r = Some xs /\ length cs = v_cap v /\
     take (length xs) cs = Live <$> xs /\ (t_triv tr = false -> drop (length xs) cs = replicate (v_cap v - length xs) Raw)) /\
  (forall r q v o b, w_regs w !! r = Some v -> w_regs w !! q = Some o -> v_blk v = Some b -> v_blk o = Some b -> r = q) /\
  (forall r v b, w_regs w !! r = Some v -> v_blk v = Some b -> is_Some (w_heap w !! b)).
Proof.
  intros Hm HR. pose proof (ireach_inv _ Hm HR) as (Hlen & Hv & Hd & Ho). split; [|split; [exact Hd|]].
  - intros b cs Hb. destruct (Ho b) as (r & v & Hr & Hvb); [eauto|]. assert (r < length (view w)) by (rewrite <- Hlen; apply lookup_lt_Some in Hr; assumption). destruct (lookup_lt_is_Some_2 (view w) r) as [xs Hx]; [assumption|].
    exists r, v, xs. destruct (Hv _ _ _ Hr Hx) as (Hl & _ & H1). rewrite Hvb in H1. destruct H1 as (R & H1 & HR1 & Hc). assert (cs = (Live <$> xs) ++ R) as -> by congruence.
    split; [assumption|]. split; [assumption|]. split; [assumption|]. rewrite app_length, fmap_length. split; [assumption|]. replace (length xs) with (length (Live <$> xs)) at 1 2 by apply fmap_length. rewrite take_app, drop_app. split; [reflexivity|].
    intros Ht. replace (v_cap v - length xs) with (length R) by lia. clear -HR1 Ht. induction HR1 as [|c R Hc _ IH]; [reflexivity|]. cbn [length replicate]. f_equal; [|assumption]. destruct Hc as [Hc| ->]; [congruence|reflexivity].
  - intros r v b Hr Hvb. assert (r < length (view w)) by (rewrite <- Hlen; apply lookup_lt_Some in Hr; assumption). destruct (lookup_lt_is_Some_2 (view w) r) as [xs Hx]; [assumption|]. destruct (Hv _ _ _ Hr Hx) as (_ & _ & H1). rewrite Hvb in H1. destruct H1 as (R & -> & _). eauto.
Qed.
(** Insertion at the end, of one element, of copies of an element, or of a range of forward iterators: if the call throws, nothing has changed. *)
Definition appends (o : @op V) (xs : list V) : Prop :=
  match o with
  | Emplace _ pos _ _ | InsertMove _ pos _ | InsertCopy _ pos _ | InsertFill _ pos _ _ | InsertList _ pos _ _ => pos = length xs
  | _ => False
  end.
Theorem C75_append w o xs w' : machine64 tr -> restorable tr = true -> ireach w -> pre tr dflt o (view w) -> view w !! dst o = Some xs -> appends o xs ->
  exec o w = Thr w' -> view w' = view w.
Proof.
  intros Hm Hs HR Hp Hx Ha E. pose proof (ireach_inv _ Hm HR) as HI. assert (Hrl : dst o < length (view w)) by (apply lookup_lt_Some in Hx; assumption).
  destruct (lookup_lt_is_Some_2 (w_regs w) (dst o)) as [v Hr]; [destruct HI as [-> _]; assumption|]. destruct Hp as (Hsp & _ & Hc).
  assert (W : wp (exec o) (fun _ _ _ => True) (fun h' rg' => Inv h' rg' (view w)) (w_heap w) (w_regs w)).
  { pose proof (Inv_St _ _ _ _ _ _ _ HI Hr Hx) as HS.
    assert (KEPT : forall ys h', St tr v ys (own (w_heap w) v) h' -> length ys = length xs -> (strong tr = true -> ys = xs) -> Inv h' (w_regs w) (view w)).
    { intros ys h' HS' _ Hy. rewrite (Hy Hs) in HS'. pose proof (Inv_same tr _ _ _ _ _ _ _ HI Hr HS') as H. rewrite list_insert_id in H by exact Hx. exact H. }
    destruct o; cbn [appends dst Machine.exec Machine.spec call_ok] in *; try contradiction; subst pos; apply (wp_pos tr moved dflt); unfold within, grows in Hc; rewrite Hx in Hsp, Hc; cbn [mbind option_bind] in Hsp.
    - destruct (sval (view w) a) as [x|] eqn:Ex; [|destruct Hsp; discriminate]. destruct Hc as (_ & Hf & Hmv & _). apply wp_bind. eapply (wp_resolve tr moved dflt); [exact HI|exact Hr|exact Hx|exact Ex|]. intros a' Ha Hmv' _.
      unfold emplace. eapply wp_insert_one_end; [exact Hm|exact Hr|exact HS|exact Hf|exact Ha|apply Hmv'; exact Hmv|auto|exact KEPT].
    - destruct Hc as (_ & Hf). unfold insert_move. apply wp_bind. eapply wp_get; [exact Hr|]. eapply wp_insert_one_end; [exact Hm|exact Hr|exact HS|exact Hf|reflexivity|eauto|auto|exact KEPT].
    - destruct (sval (view w) a) as [x|] eqn:Ex; [|destruct Hsp; discriminate]. destruct Hc as (_ & Hf). apply wp_bind. eapply (wp_resolve tr moved dflt); [exact HI|exact Hr|exact Hx|exact Ex|]. intros a' Ha _ _.
      unfold insert_copy. apply wp_bind. eapply wp_get; [exact Hr|]. eapply wp_insert_one_end; [exact Hm|exact Hr|exact HS|exact Hf|exact Ha|discriminate|auto|exact KEPT].
    - destruct (sval (view w) a) as [x|] eqn:Ex; [|destruct Hsp; discriminate]. destruct Hc as (_ & Hf). apply wp_bind. eapply (wp_resolve tr moved dflt); [exact HI|exact Hr|exact Hx|exact Ex|]. intros a' Ha _ _.
      unfold insert_fill. apply wp_bind. eapply wp_by_vt; [exact HS|exact Ha|]. intros a2 Ha2 _ _. apply wp_bind. eapply wp_get; [exact Hr|]. eapply wp_insert_fill_end; [exact Hm|exact Hr|exact HS|exact Hf|exact Ha2|auto|exact KEPT].
    - destruct Hc as (_ & Hf). eapply wp_insert_end; [exact Hm|exact Hr|exact HS|exact Hf|auto|exact KEPT]. }
  apply wp_world in W. rewrite E in W. apply (view_inv tr). exact W.
Qed.
End Props.
Print Assumptions C75_programs. Print Assumptions C75_insert_input. Print Assumptions C75_no_leak. Print Assumptions C75_append.

(** ** Concrete runs *)
Lemma plain_reach {V} tr (moved : V -> V) dflt w : reach tr moved dflt w -> ireach tr moved dflt w.
Proof.
  induction 1 as [k orc|w o x w' HR IH Hp E|w o w' HR IH Hp E]; [apply ireach_start| |].
  - exact (ireach_ret tr moved dflt w (Plain o) x w' IH Hp E).
  - exact (ireach_thr tr moved dflt w (Plain o) w' IH Hp E).
Qed.
(** the world with the vectors [1; 2; 3] and [], in which the [n]th operation after that throws *)
Definition w123 (orc : list bool) : @world nat := match go cls mv0 7 [CtorList 0 [1; 2; 3]] (start 2 (replicate 4 false ++ orc)) with Some w => w | None => start 2 [] end.
Lemma w123_reach orc : ireach cls mv0 7 (w123 orc).
Proof. unfold w123. destruct (go _ _ _ _ _) as [w|] eqn:E; [|apply ireach_start]. eapply plain_reach, go_reach; [apply reach_start|exact E]. Qed.
Lemma w123_pre orc : orc = [] \/ orc = [false; false; true] -> ipre cls 7 (InsertInput 0 1 1 [8; 9] false) (view (w123 orc)).
Proof. intros [->| ->]; (split; [discriminate|]; split; [vm_compute; reflexivity|]; exists [1; 2; 3]; split; [vm_compute; reflexivity|]; split; [cbn [length]; lia|vm_compute; reflexivity]). Qed.
Example C75_ex : exists w', ireach cls mv0 7 (w123 []) /\ ipre cls 7 (InsertInput 0 1 1 [8; 9] false) (view (w123 [])) /\
  iexec cls mv0 7 (InsertInput 0 1 1 [8; 9] false) (w123 []) = Ret (OPos 1) w' /\ view w' = [[1; 8; 9; 2; 3]; []] /\ size (w_heap w') = 1.
Proof. eexists. split; [apply w123_reach|]. split; [apply w123_pre; auto|]. split; [vm_compute; reflexivity|]. vm_compute. auto. Qed.
(** Refuted: "insert leaves the elements that were there".  v = {1, 2, 3}; v.insert(v.begin() + 1, first, last) of input iterators over
    8, 9: if the copy of 9 throws, the elements 2 and 3 are lost; v is {1, 8}. *)
Theorem C75_keeps_elements_refuted : exists w w', ireach cls mv0 7 w /\ ipre cls 7 (InsertInput 0 1 1 [8; 9] false) (view w) /\ view w = [[1; 2; 3]; []] /\
  iexec cls mv0 7 (InsertInput 0 1 1 [8; 9] false) w = Thr w' /\ view w' = [[1; 8]; []].
Proof. exists (w123 [false; false; true]). eexists. split; [apply w123_reach|]. split; [apply w123_pre; auto|]. split; [vm_compute; reflexivity|]. split; vm_compute; reflexivity. Qed.
Print Assumptions C75_keeps_elements_refuted.
(** an insertion at the end that throws while the elements are copied to a new block *)
Example C75_append_ex : exists w', pre cls 7 (InsertCopy 0 3 (AVal 8)) (view (w123 [false; true])) /\ exec cls mv0 7 (InsertCopy 0 3 (AVal 8)) (w123 [false; true]) = Thr w' /\ view w' = [[1; 2; 3]; []].
Proof. eexists. split; [apply (preb_ok cls mv0); vm_compute; reflexivity|]. split; vm_compute; reflexivity. Qed.
(** at other positions an exception may lose elements: v = {1, 2, 3}, v.reserve(10), v.insert(v.begin() + 1, x): if the copy of x throws, v is {1} *)
Theorem C75_insert_middle_refuted : exists w w', reach cls mv0 7 w /\ view w = [[1; 2; 3]; []] /\ pre cls 7 (InsertCopy 0 1 (AVal 8)) (view w) /\ exec cls mv0 7 (InsertCopy 0 1 (AVal 8)) w = Thr w' /\ view w' = [[1]; []].
Proof.
  eexists _, _. split; [eapply (go_reach cls mv0 7 [CtorList 0 [1; 2; 3]; Reserve 0 10] (start 2 (replicate 6 false ++ [true]))); [apply reach_start|vm_compute; reflexivity]|].
  split; [vm_compute; reflexivity|]. split; [apply (preb_ok cls mv0); vm_compute; reflexivity|]. split; vm_compute; reflexivity.
Qed.
Print Assumptions C75_insert_middle_refuted.
