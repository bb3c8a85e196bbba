(** The operations of the tree: searching, inserting at and erasing from an iterator keep the shape and act on the list of values. *)
From stdpp Require Import list.
From Coq Require Import Arith Lia ZifyBool ZifyNat Sorting.Sorted.
From Verif.Common Require Import Res.
From Verif.BTree Require Import Tree TreeFacts Balance Search Spec SearchFacts Ops Iter.
Local Open Scope nat_scope.

Section Sorted.
Context {A : Type} (R : A -> A -> Prop).
Lemma ss_app l1 l2 : StronglySorted R (l1 ++ l2) <-> StronglySorted R l1 /\ StronglySorted R l2 /\ Forall (fun x => Forall (R x) l2) l1.
Proof.
  induction l1 as [|x l1 IH]; cbn.
  - split; [|tauto]. intros. split; [constructor|]. split; [done|constructor].
  - split.
    + intros H. apply StronglySorted_inv in H as [H1 H2]. rewrite Forall_app in H2. apply IH in H1 as (H3 & H4 & H5).
      destruct H2. split; [by constructor|]. split; [done|]. by constructor.
    + intros (H1 & H2 & H3). apply StronglySorted_inv in H1 as [H1 H4]. apply Forall_cons in H3 as [H3 H5].
      constructor; [tauto|]. rewrite Forall_app. auto.
Qed.
End Sorted.

Section OpsFacts.
Context {V K : Type} (key : V -> K) (lt : K -> K -> bool) (kN : nat) (m : mode).
Context (Hlt : swo lt) (HkN : 3 <= kN).
Implicit Types (b : btree V) (t : node V) (f p : frame V) (fs ps gs : list (frame V)) (v : V) (k : K) (c d : cursor V) (l L R : list V).
Notation wf := (wf kN). Notation ctx := (ctx kN). Notation wff := (wff kN).
Notation srt := (sorted key lt (multi m)).

(** ** the shape of a tree *)
Definition shape b : Prop :=
  exists H, wf H (b_root b) /\ (b_root b <> Nil -> MK (lmarks (b_root b))) /\
  (H = 1 -> ncount (b_root b) <= b_cap b /\ 1 <= b_cap b <= kN) /\ (2 <= H -> b_cap b = kN) /\ b_size b = length (elems (b_root b)).
Definition repr b l : Prop := shape b /\ elems (b_root b) = l /\ srt l.

Lemma shape_new : shape new_btree.
Proof. exists 0. cbn. repeat split; try lia; done. Qed.
Lemma begin_spec b : shape b -> exists c, begin_ b = Ok c /\ it (b_root b) 0 c.
Proof.
  intros (H & Hw & HM & _). unfold begin_. pose proof (it_begin kN H _ Hw) as Hi. rewrite (it_is_first kN H _ _ Hw HM Hi). eauto.
Qed.
Lemma end_spec b : shape b -> exists c, end_ b = Ok c /\ it (b_root b) (length (elems (b_root b))) c.
Proof.
  intros (H & Hw & HM & _). unfold end_. destruct (it_end kN H _ Hw) as (c & -> & Hi). cbn. rewrite (it_is_last kN H _ _ Hw HM Hi). eauto.
Qed.
Lemma next_it b i c : shape b -> it (b_root b) i c -> i < length (elems (b_root b)) -> exists c', next c = Ok c' /\ it (b_root b) (S i) c'.
Proof. intros (H & Hw & _). by apply (it_next kN H). Qed.
Lemma prev_it b i c : shape b -> it (b_root b) (S i) c -> exists c', prev c = Ok c' /\ it (b_root b) i c' /\ next c' = Ok c.
Proof. intros (H & Hw & _). by apply (it_prev kN H). Qed.
Lemma same_it b i j c d : shape b -> it (b_root b) i c -> it (b_root b) j d -> same c d = (i =? j).
Proof. intros (H & Hw & _). by apply (it_same kN H). Qed.
Lemma unique_it b i c d : shape b -> it (b_root b) i c -> it (b_root b) i d -> c = d.
Proof. intros (H & Hw & _). by apply (it_unique kN H). Qed.
Lemma size_shape b : shape b -> b_size b = length (elems (b_root b)).
Proof. by intros (H & _ & _ & _ & _ & ?). Qed.
Lemma empty_shape b : shape b -> empty b = true -> b_root b = Nil.
Proof.
  intros (H & Hw & _ & _ & _ & Hs) He. unfold empty in He. destruct H as [|H]; [by destruct (b_root b)|].
  apply wf_elems in Hw. destruct (elems (b_root b)); [done|]. cbn in Hs. lia.
Qed.
Lemma distance_spec b i j c d n : shape b -> it (b_root b) i c -> it (b_root b) j d -> i <= j -> j - i <= n -> distance n c d = Ok (j - i).
Proof.
  intros Hb. revert i c. induction n as [|n IH]; intros i c Hc Hd Hij Hn; cbn; rewrite (same_it b i j c d) by auto.
  - replace (i =? j) with true by lia. by replace (j - i) with 0 by lia.
  - destruct (i =? j) eqn:E; [by replace (j - i) with 0 by lia|].
    pose proof (it_le _ _ _ Hd). destruct (next_it b i c Hb Hc) as (c' & -> & Hc'); [lia|]. cbn. rewrite (IH (S i)) by (auto; lia). cbn. f_equal. lia.
Qed.
Lemma advance_spec b i j c : shape b -> it (b_root b) i c -> i + j <= length (elems (b_root b)) -> exists d, advance j c = Ok d /\ it (b_root b) (i + j) d.
Proof.
  intros Hb. revert i c. induction j as [|j IH]; intros i c Hc Hle; cbn; [rewrite Nat.add_0_r; eauto|].
  destruct (next_it b i c Hb Hc) as (c' & -> & Hc'); [lia|]. cbn. destruct (IH (S i) c' Hc') as (d & -> & Hd); [lia|].
  exists d. replace (i + S j) with (S i + j) by lia. auto.
Qed.

(** ** searching *)
Lemma glue_vals (l1 : list (node V * V)) t r (k0 : node V) rest : glue l1 t r = (k0, rest) -> map fst rest = map snd l1 ++ map fst r.
Proof.
  revert k0 rest. induction l1 as [|[k' v] l1 IH]; cbn; intros k0 rest H; simplify_eq; [done|].
  destruct (glue l1 t r) as [t' r'] eqn:E. simplify_eq. cbn. by rewrite (IH t' r').
Qed.
Lemma sorted_vals rest : srt (cat_r rest) -> srt (map fst rest).
Proof.
  induction rest as [|[v k0] rest IH]; cbn; intros H; [constructor|].
  rewrite cat_r_cons in H. apply StronglySorted_inv in H as [H1 H2]. apply ss_app in H1 as (_ & H1 & _). constructor; [by apply IH|].
  rewrite Forall_app in H2. destruct H2 as [_ H2]. clear IH H1. induction rest as [|[v1 k1] rest IH]; cbn; [constructor|].
  rewrite cat_r_cons in H2. apply Forall_cons in H2 as [H2 H3]. rewrite Forall_app in H3. constructor; [done|]. tauto.
Qed.
Lemma sorted_keys_map l : srt l -> sorted (fun x : K => x) lt (multi m) (map key l).
Proof. induction 1 as [|v l H IH Hf]; cbn; constructor; auto. by rewrite Forall_map. Qed.
Lemma part_left (pr : K -> bool) L v R : mono lt (multi m) pr -> srt (L ++ v :: R) -> pr (key v) = true -> Forall (fun x => pr (key x) = true) L.
Proof.
  intros Hm Hs Hv. apply ss_app in Hs as (_ & _ & Hs). eapply Forall_impl; [exact Hs|]. cbn. intros x Hx. apply Forall_cons in Hx as [Hx _]. eauto.
Qed.
Lemma part_right (pr : K -> bool) L v R : mono lt (multi m) pr -> srt (L ++ v :: R) -> pr (key v) = false -> Forall (fun x => pr (key x) = false) R.
Proof.
  intros Hm Hs Hv. apply ss_app in Hs as (_ & Hs & _). apply StronglySorted_inv in Hs as [_ Hs]. eapply Forall_impl; [exact Hs|]. cbn.
  intros x Hx. destruct (pr (key x)) eqn:E; [|done]. rewrite <- Hv. symmetry. eauto.
Qed.
(* the value at which the search stops *)
Definition found_at k c : Prop := exists f gs v t' r, c_path c = f :: gs /\ f_r f = (v, t') :: r /\ lt (key v) k = false /\ lt k (key v) = false.
Lemma descend_spec (stop : bool) (pick : list K -> nat * bool) (pr : K -> bool) k h t ps :
  mono lt (multi m) pr ->
  (forall ks, sorted (fun x : K => x) lt (multi m) ks -> let '(i, e) := pick ks in partition_point pr ks i /\ (stop = true -> (forall x, pr x = lt x k) /\ exact_at lt k ks i e /\ (e = true -> i < length ks))) ->
  wf h t -> srt (elems t) ->
  exists c e, descend key h stop pick t ps = Ok (c, e) /\ root_of c = close_all ps t /\
    if e then stop = true /\ found_at k c
    else c_sub c = Nil /\ (ps <> [] \/ t <> Nil -> c_path c <> []) /\ exists L R, elems t = L ++ R /\ before (c_path c) = before ps ++ L /\ after (c_path c) = R ++ after ps /\
         Forall (fun v => pr (key v) = true) L /\ Forall (fun v => pr (key v) = false) R /\ (stop = true -> Forall (fun v => lt k (key v) = true) R).
Proof.
  intros Hm Hpick. revert t ps. induction h as [|h IH]; intros [|a k0 rest] ps Hw Hs; try done.
  { exists (mkCur ps Nil), false. split; [done|]. split; [done|]. split; [done|]. split; [cbn; tauto|]. exists [], []. cbn. rewrite app_nil_r. repeat split; auto; constructor. }
  cbn [descend].
  assert (Hks : sorted (fun x : K => x) lt (multi m) (map (fun x => key (fst x)) rest)).
  { rewrite elems_node in Hs. apply ss_app in Hs as (_ & Hs & _). apply sorted_vals in Hs. apply sorted_keys_map in Hs. by rewrite map_map in Hs. }
  specialize (Hpick _ Hks) as Hpk. destruct (pick (map (fun x => key (fst x)) rest)) as [i e]. destruct Hpk as [(Hi & Hlo & Hhi) Hst].
  rewrite map_length in Hi. destruct (child_at_spec i a k0 rest Hi) as (f & t' & -> & Hcl & Hlen & Hmk). cbn [rbind].
  assert (Hvals : map (fun x => key (fst x)) rest = map (fun x => key (snd x)) (f_l f) ++ map (fun x => key (fst x)) (f_r f)).
  { revert Hcl. unfold close. destruct (glue _ _ _) as [k1 r1] eqn:E. intros ?; simplify_eq. apply glue_vals in E. rewrite <- (map_map fst key), E, map_app, !map_map. done. }
  rewrite <- Hcl in Hw, Hs |- *. apply wf_close in Hw as (Hff & Ht' & Hcnt). rewrite close_elems in Hs.
  assert (HL : Forall (fun v => pr (key v) = true) (cat_l (f_l f))).
  { pose proof (unsnoc_spec (f_l f)) as Hu. destruct (unsnoc (f_l f)) as [[l0 [k1 v1]]|]; [|rewrite Hu; constructor].
    assert (Hv1 : pr (key v1) = true).
    { apply (Hlo (length l0)). { rewrite <- Hlen, Hu, app_length. cbn. lia. }
      rewrite Hvals, Hu, map_app, <- app_assoc. rewrite lookup_app_r by (rewrite map_length; lia). by rewrite map_length, Nat.sub_diag. }
    rewrite Hu, cat_l_app, cat_l_cons, cat_l_nil in Hs |- *.
    assert (Heq : (cat_l l0 ++ elems k1 ++ [v1]) ++ elems t' ++ cat_r (f_r f) = (cat_l l0 ++ elems k1) ++ v1 :: (elems t' ++ cat_r (f_r f))) by (by rewrite <- !app_assoc).
    rewrite Heq in Hs. rewrite app_assoc, Forall_app. split; [|by repeat constructor]. eapply part_left; eauto. }
  assert (HR : Forall (fun v => pr (key v) = false) (cat_r (f_r f)) /\ (stop = true -> e = false -> Forall (fun v => lt k (key v) = true) (cat_r (f_r f)))).
  { destruct (f_r f) as [|[v1 k1] r1] eqn:Er; [split; [|intros]; constructor|].
    assert (Hlk : map (fun x => key (fst x)) rest !! i = Some (key v1)).
    { rewrite Hvals. rewrite lookup_app_r by (rewrite map_length; lia). rewrite map_length, Hlen, Nat.sub_diag. done. }
    assert (Hv1 : pr (key v1) = false) by (apply (Hhi i); auto).
    rewrite cat_r_cons in *. rewrite app_assoc in Hs. split.
    - constructor; [done|]. eapply part_right; eauto.
    - intros Hstop ->. destruct (Hst Hstop) as (_ & Hex & _). specialize (Hex _ Hlk). cbn in Hex. constructor; [done|].
      assert (Hk : Forall (fun x => negb (lt k (key x)) = false) (elems k1 ++ cat_r r1)).
      { eapply (part_right (fun x => negb (lt k x))); eauto; [by apply mono_upper|]. cbn. by rewrite Hex. }
      eapply Forall_impl; [exact Hk|]. cbn. intros x Hx. by apply negb_false_iff in Hx. }
  destruct (stop && e) eqn:Ese.
  - apply andb_true_iff in Ese as [-> ->]. eexists _, true. split; [done|]. split; [done|]. split; [done|].
    destruct (Hst eq_refl) as (Hpk & Hex & Hlt2). specialize (Hlt2 eq_refl). rewrite map_length in Hlt2.
    destruct (f_r f) as [|[v1 k1] r1] eqn:Er.
    { exfalso. apply (f_equal length) in Hvals. rewrite app_length, !map_length in Hvals. cbn in Hvals. lia. }
    assert (Hlk : map (fun x => key (fst x)) rest !! i = Some (key v1)).
    { rewrite Hvals. rewrite lookup_app_r by (rewrite map_length; lia). rewrite map_length, Hlen, Nat.sub_diag. done. }
    exists f, ps, v1, k1, r1. split; [done|]. split; [done|]. split; [rewrite <- Hpk; by apply (Hhi i)|]. specialize (Hex _ Hlk). cbn in Hex. exact Hex.
  - destruct (IH t' (f :: ps) Ht') as (c & e' & -> & Hroot & Hres). { apply ss_app in Hs as (_ & Hs & _). by apply ss_app in Hs as (Hs & _). }
    exists c, e'. split; [done|]. split; [done|]. destruct e'; [done|].
    destruct Hres as (Hsub & Hne & L & R & HeLR & Hb & Ha & HfL & HfR & HfS). split; [done|]. split; [intros _; apply Hne; by left|].
    exists (cat_l (f_l f) ++ L), (R ++ cat_r (f_r f)). rewrite close_elems, HeLR. cbn in Hb, Ha. rewrite Hb, Ha, <- !app_assoc.
    split; [done|]. split; [done|]. split; [done|]. rewrite !Forall_app. split; [done|]. split; [tauto|].
    intros Hstop. split; [auto|]. apply HR; auto. destruct e, stop; done.
Qed.

(** ** inserting at an iterator *)
Definition leaf_ok b f ps : Prop :=
  wff 0 f /\ count f <= kN /\ ctx 1 ps /\ MK (mbefore ps ++ f_mark f :: mafter ps) /\
  (ps = [] -> count f <= b_cap b /\ 1 <= b_cap b <= kN) /\ (ps <> [] -> b_cap b = kN).
Lemma wf_nil_sub c H : wf H (root_of c) -> c_sub c = Nil -> H = length (c_path c) /\ ctx 0 (c_path c).
Proof. intros Hw Hs. destruct (open_wf kN _ _ _ Hw) as (h & -> & Hc & Ht). rewrite Hs in Ht. destruct h; [|done]. auto. Qed.
Lemma ncount_close f t : ncount (close f t) = count f.
Proof. unfold close. destruct (glue _ _ _) as [k0 rest] eqn:E. cbn. by apply glue_length in E. Qed.
Lemma leaf_shape b f ps n : wff 0 f -> 1 <= count f <= kN -> ctx 1 ps -> MK (mbefore ps ++ f_mark f :: mafter ps) ->
  (ps = [] -> count f <= b_cap b /\ 1 <= b_cap b <= kN) -> (ps <> [] -> b_cap b = kN) -> b_root b = close_all (f :: ps) Nil -> b_size b = n -> n = length (elems (b_root b)) -> shape b.
Proof.
  intros Hf Hc Hps HM H1 H2 Hr <- Hs. exists (1 + length ps). rewrite Hr. split; [|split; [|split; [|split]]].
  - apply (close_wf kN 0 (f :: ps)); [by cbn|done].
  - intros _. by rewrite (lmarks_root kN).
  - intros HH. assert (ps = []) as -> by (destruct ps; [done|cbn in HH; lia]). cbn. rewrite ncount_close. auto.
  - intros HH. apply H2. intros ->. cbn in HH. lia.
  - by rewrite <- Hr.
Qed.
Lemma shape_leaf_ok b c f ps : shape b -> root_of c = b_root b -> c_path c = f :: ps -> c_sub c = Nil -> leaf_ok b f ps.
Proof.
  intros (H & Hw & HM & H1 & H2 & _) Hr Hp Hs. rewrite <- Hr in Hw. destruct (wf_nil_sub c H Hw Hs) as [HH Hctx]. rewrite Hp in *.
  destruct Hctx as (Hf & Hcnt & Hps). unfold root_of in Hr. rewrite Hp, Hs in Hr. rewrite <- Hr in *. split; [done|]. split; [lia|]. split; [done|]. split.
  - rewrite <- (lmarks_root kN) by auto. apply HM. apply close_all_not_nil.
  - split.
    + intros ->. cbn in *. rewrite ncount_close in H1. auto.
    + intros Hne. apply H2. destruct ps; [done|]. cbn in *. lia.
Qed.
Definition fresh : btree V := mkBt (Node both Nil []) 0 1.
Lemma fresh_leaf_ok : leaf_ok fresh (mkFrame both [] []) [].
Proof. split; [split; constructor|]. split; [cbn; lia|]. split; [done|]. split; [cbn; repeat split; constructor|]. split; [cbn; lia|done]. Qed.

Lemma emplace_leaf b f ps v : leaf_ok b f ps -> b_size b = length (before (f :: ps) ++ after (f :: ps)) ->
  exists b' c', internal_emplace kN b (mkCur (f :: ps) Nil) v = Ok (b', c') /\ shape b' /\ elems (b_root b') = before (f :: ps) ++ v :: after (f :: ps) /\
    it (b_root b') (length (before (f :: ps))) c'.
Proof.
  intros (Hf & Hcnt & Hps & HM & Hc1 & Hc2) Hsz. unfold internal_emplace. cbn [c_sub leaf rbind c_path].
  assert (Hgo : forall cap f' ps', wff 0 f' -> count f' < cap -> cap <= kN -> ctx 1 ps' -> MK (mbefore ps' ++ f_mark f' :: mafter ps') ->
            (ps' <> [] -> cap = kN) -> vals_kept f ps f' ps' ->
    exists b' c', (if count f' <? cap then let c' := mkCur (mkFrame (f_mark f') (f_l f') ((v, Nil) :: f_r f') :: ps') Nil in Ok (mkBt (root_of c') (S (b_size b)) cap, c') else UB) = Ok (b', c') /\
      shape b' /\ elems (b_root b') = before (f :: ps) ++ v :: after (f :: ps) /\ it (b_root b') (length (before (f :: ps))) c').
  { intros cap f' ps' Hf' Hlt' Hcap Hps' HM' Hne [Hvb Hva]. replace (count f' <? cap) with true by lia. set (c' := mkCur _ _).
    exists (mkBt (root_of c') (S (b_size b)) cap), c'. split; [done|]. cbn [b_root].
    assert (Hel : elems (root_of c') = before (f :: ps) ++ v :: after (f :: ps)).
    { rewrite root_elems. unfold lefts, rights, c'. cbn [c_path c_sub]. rewrite elems_nil, app_nil_r. rewrite <- Hvb, <- Hva. cbn. by rewrite cat_r_cons, elems_nil. }
    split; [|split; [done|]].
    - apply (leaf_shape _ (mkFrame (f_mark f') (f_l f') ((v, Nil) :: f_r f')) ps' (S (b_size b))); cbn [b_root b_size b_cap f_mark]; auto.
      + destruct Hf' as [H1 H2]. split; cbn; [done|]. by constructor.
      + unfold count in *. cbn. lia.
      + unfold count in *. cbn. lia.
      + rewrite Hel, Hsz, !app_length. cbn. lia.
    - split; [done|]. split; [unfold normal; cbn; auto|]. unfold lefts, c'. cbn [c_path c_sub]. rewrite elems_nil, app_nil_r. by rewrite <- Hvb. }
  destruct (count f =? b_cap b) eqn:E1.
  - destruct (b_cap b <? kN) eqn:E2.
    + destruct ps as [|p gs]; [|specialize (Hc2 ltac:(done)); lia]. cbn [rbind]. destruct (Hc1 eq_refl) as [H1 H2].
      apply (Hgo _ (mkFrame both (f_l f) (f_r f)) []); try done; try lia.
      * unfold count in *; cbn. lia.
      * cbn. repeat split; constructor.
    + assert (b_cap b = kN) as Hcap. { destruct ps; [destruct (Hc1 eq_refl); lia|auto]. }
      destruct (rebalance_or_split_spec kN 0 f ps) as (f' & ps' & E & Hf' & Hcf' & Hps' & Hne & Hv & Hm); auto; [lia|].
      change (bool_decide (0 = 0)) with true in E. rewrite E. cbn [rbind]. apply Hgo; auto; try lia; try (apply Hm; auto).
  - cbn [rbind]. apply Hgo; auto; try done.
    + destruct ps; [destruct (Hc1 eq_refl); lia|]. rewrite Hc2 by done. specialize (Hc2 ltac:(done)). lia.
    + destruct ps; [destruct (Hc1 eq_refl); lia|]. rewrite Hc2 by done. lia.
Qed.
Lemma shift_leaf b i c v' R' : shape b -> root_of c = b_root b -> normal c -> c_sub c = Nil -> rights c = v' :: R' -> length (lefts c) = i ->
  exists c', shift c = Ok c' /\ root_of c' = b_root b /\ c_sub c' = Nil /\ lefts c' = lefts c ++ [v'] /\ rights c' = R' /\ c_path c' <> [].
Proof.
  intros (H & Hw & _) Hr Hn Hs HR Hi. destruct c as [[|f ps] t]; [done|]. unfold rights, normal, root_of in *. cbn [c_path c_sub] in *. subst t.
  destruct Hn as [Hn|[_ Hn]]; [|unfold rights in Hn; cbn [c_path] in Hn; congruence]. rewrite <- Hr in Hw. change (wf H (root_of (mkCur (f :: ps) Nil))) in Hw.
  destruct (wf_nil_sub _ H Hw eq_refl) as [_ Hctx]. cbn [c_path] in Hctx. destruct Hctx as ((_ & Hfr) & _).
  unfold shift. cbn [c_path c_sub]. destruct (f_r f) as [|[w k] r] eqn:Er; [done|]. apply Forall_cons in Hfr as [Hk _]. cbn [snd] in Hk. destruct k; [|done].
  cbn [after] in HR. rewrite Er, cat_r_cons, elems_nil in HR. cbn in HR. simplify_eq.
  eexists; split; [done|]. cbn [c_path c_sub]. split. { rewrite <- Hr. cbn. rewrite close_shift. destruct f; cbn in *; by subst. }
  split; [done|]. unfold lefts. cbn. rewrite elems_nil, cat_l_app, cat_l_cons, cat_l_nil, elems_nil, !app_nil_r, <- app_assoc. done.
Qed.
(** internal_emplace at an iterator, or at a position of a leaf *)
Lemma emplace_spec b c v : shape b -> root_of c = b_root b -> (c_sub c = Nil /\ c_path c <> []) \/ (normal c /\ b_root b <> Nil) ->
  exists b' c', internal_emplace kN b c v = Ok (b', c') /\ shape b' /\ elems (b_root b') = insert_at (length (lefts c)) v (elems (b_root b)) /\
    it (b_root b') (length (lefts c)) c'.
Proof.
  intros Hb Hr Hc. unfold insert_at.
  assert (Hel : elems (b_root b) = lefts c ++ rights c) by (rewrite <- Hr; apply root_elems). rewrite Hel, take_app, drop_app.
  pose proof (size_shape b Hb) as Hsz.
  assert (Hleaf : forall c0, root_of c0 = b_root b -> c_sub c0 = Nil -> c_path c0 <> [] -> lefts c0 = lefts c -> rights c0 = rights c ->
    exists b' c', internal_emplace kN b c0 v = Ok (b', c') /\ shape b' /\ elems (b_root b') = lefts c ++ v :: rights c /\ it (b_root b') (length (lefts c)) c').
  { intros c0 Hr0 Hs0 Hp0 Hl0 HR0. destruct (c_path c0) as [|f ps] eqn:E; [done|]. destruct c0 as [fs t0]. cbn in *. subst.
    destruct (emplace_leaf b f ps v) as (b' & c' & E' & Hb' & He' & Hi'). { eapply (shape_leaf_ok b (mkCur (f :: ps) Nil)); eauto. }
    { rewrite Hsz, Hel, <- Hl0, <- HR0. unfold lefts, rights. cbn [c_path c_sub]. by rewrite elems_nil, app_nil_r. }
    exists b', c'. split; [done|]. split; [done|]. rewrite He'. rewrite <- Hl0, <- HR0. unfold lefts, rights. cbn [c_path c_sub]. rewrite elems_nil, app_nil_r. auto. }
  assert (c_sub c = Nil \/ c_sub c <> Nil) as [Hs|Hs] by (destruct (c_sub c); auto).
  - apply Hleaf; auto. destruct Hc as [[_ ?]|[Hn Hne]]; [done|]. intros E. unfold root_of in Hr. rewrite E, Hs in Hr. by rewrite <- Hr in Hne.
  - destruct Hc as [[? _]|[Hn Hne]]; [done|].
    assert (HL : exists L v', lefts c = L ++ [v']).
    { destruct Hb as (H & Hw & _). rewrite <- Hr in Hw. destruct (open_wf kN _ _ _ Hw) as (h & -> & _ & Ht). destruct h; [by destruct (c_sub c)|].
      apply wf_elems in Ht. unfold lefts. pose proof (unsnoc_spec (before (c_path c) ++ elems (c_sub c))) as Hu. destruct (unsnoc _) as [[L v']|]; [eauto|].
      apply app_eq_nil in Hu as [_ Hu]. done. }
    destruct HL as (L & v' & HL). destruct (Hb) as (H & Hw & _). rewrite <- Hr in Hw.
    destruct (prev_spec kN H c L v' Hw Hn HL) as (c1 & E1 & Hr1 & Hn1 & Hl1 & HR1 & _ & Hs1). specialize (Hs1 Hs).
    destruct (shift_leaf b (length L) c1 v' (rights c)) as (c2 & E2 & Hr2 & Hs2 & Hl2 & HR2 & Hp2); auto; try congruence.
    assert (leaf (c_sub c) = false) as Hlf by (by destruct (c_sub c)).
    destruct (Hleaf c2) as (b' & c' & E' & Hrest); auto. { congruence. }
    exists b', c'. split; [|done]. unfold internal_emplace in *. rewrite Hlf, E1. cbn [rbind]. rewrite E2. cbn [rbind]. rewrite Hs2 in E'. cbn [leaf rbind] in E'. exact E'.
Qed.

(** ** erasing at an iterator *)
Lemma cat_l_leaf (l1 : list (node V * V)) : Forall (fun x => wf 0 (fst x)) l1 -> length (cat_l l1) = length l1.
Proof. induction 1 as [|[k0 v] l1 Hk _ IH]; cbn; [done|]. cbn in Hk. destruct k0; [|done]. rewrite cat_l_cons, elems_nil. cbn. by rewrite IH. Qed.
Lemma cat_r_leaf (r : list (V * node V)) : Forall (fun x => wf 0 (snd x)) r -> cat_r r = map fst r.
Proof. induction 1 as [|[v k0] r Hk _ IH]; cbn; [done|]. cbn in Hk. destruct k0; [|done]. rewrite cat_r_cons, elems_nil. cbn. by rewrite IH. Qed.
(* a node after its values were removed, before rebalancing *)
Definition hole_ok b h f ps t : Prop :=
  wff h f /\ count f <= kN /\ ctx (S h) ps /\ wf h t /\
  (if h then MK (mbefore ps ++ f_mark f :: mafter ps) else MK (mbefore (f :: ps) ++ lmarks t ++ mafter (f :: ps))) /\
  (h = 0 -> ps = [] -> count f <= b_cap b /\ 1 <= b_cap b <= kN) /\ (h <> 0 \/ ps <> [] -> b_cap b = kN) /\ (h <> 0 -> f_r f <> []).
Lemma after_delete_spec b n h f ps t : hole_ok b h f ps t -> b_size b - n = length (elems (close_all (f :: ps) t)) ->
  exists b' c', after_delete kN b n (mkCur (f :: ps) t) = Ok (b', c') /\ shape b' /\ elems (b_root b') = elems (close_all (f :: ps) t) /\
    it (b_root b') (length (before (f :: ps) ++ elems t)) c'.
Proof.
  intros (Hf & Hcnt & Hps & Ht & HM & Hc1 & Hc2 & Hne) Hsz. unfold after_delete, rebalance_after_delete. cbn [c_path c_sub].
  rewrite (wf_leaf _ _ _ Ht). pose proof (rebalance_up_spec kN h f ps HkN Hf Hcnt Hps) as Hup.
  destruct (rebalance_up kN (bool_decide (h = 0)) f ps) as [|f' ps'].
  - destruct Hup as (-> & Hl & Hr). destruct h as [|h]; [|by destruct Hne]. destruct t; [|done]. cbn [rbind bool_decide].
    rewrite bool_decide_eq_true_2 by done. cbn [rbind]. eexists _, _; split; [done|].
    assert (He : elems (close_all [f] Nil) = []). { rewrite elems_root. cbn. by rewrite Hl, Hr. }
    split; [|split].
    + exists 0. cbn [b_root b_size b_cap root_of]. split; [done|]. split; [done|]. split; [lia|]. split; [lia|]. rewrite Hsz, He. done.
    + cbn [b_root]. rewrite He. done.
    + cbn [b_root]. split; [done|]. split; [done|]. cbn. rewrite Hl. done.
  - destruct Hup as (Hf' & Hcnt' & Hps' & (Hvb & Hva) & Hmk & (Hae1 & Hae2) & Hpne).
    set (c1 := mkCur (f' :: ps') t).
    assert (Hroot : elems (root_of c1) = elems (close_all (f :: ps) t)). { unfold root_of, c1. cbn [c_path c_sub]. rewrite !elems_root, Hvb, Hva. done. }
    assert (Hw1 : wf (S h + length ps') (root_of c1)). { unfold root_of, c1. cbn [c_path c_sub]. replace (S h + length ps') with (h + length (f' :: ps')) by (cbn; lia). apply close_wf; [by cbn|done]. }
    assert (Hlf : h = 0 -> ps = [] -> ps' = [] -> count f' = count f).
    { intros -> -> ->. destruct Hf as [Hfa Hfb], Hf' as [Hfa' Hfb']. cbn in Hvb, Hva. rewrite !app_nil_r in Hva.
      apply (f_equal length) in Hvb, Hva. rewrite (cat_l_leaf _ Hfa), (cat_l_leaf _ Hfa') in Hvb. rewrite !cat_r_leaf, !map_length in Hva by done. unfold count. lia. }
    assert (Hshape : shape (mkBt (root_of c1) (b_size b - n) (b_cap b))).
    { exists (S h + length ps'). cbn [b_root b_size b_cap]. split; [done|]. split; [|split; [|split]].
      - intros _. unfold root_of, c1. cbn [c_path c_sub]. destruct h as [|h].
        + destruct t; [|done]. rewrite (lmarks_root kN) by auto. auto.
        + rewrite (lmarks_inner_root kN h) by (auto; by cbn). destruct Hmk as [H1 H2]. by rewrite H1, H2.
      - intros HH. assert (h = 0) as -> by lia. assert (ps' = []) as -> by (destruct ps'; [done|cbn in HH; lia]). unfold root_of, c1. cbn [c_path c_sub close_all].
        rewrite ncount_close. destruct ps as [|p gs].
        + rewrite Hlf by done. auto.
        + rewrite Hc2 by (right; done). lia.
      - intros HH. apply Hc2. destruct h as [|h]; [right|left; lia]. apply Hpne. intros ->. cbn in HH. lia.
      - rewrite Hsz, Hroot. done. }
    assert (Hlefts : lefts c1 = before (f :: ps) ++ elems t). { unfold lefts, c1. cbn [c_path c_sub]. by rewrite Hvb. }
    destruct (f_r f') as [|x r'] eqn:Er.
    + assert (h = 0) as ->. { destruct h; [done|]. exfalso. by apply Hne; [|apply Hae1]. } destruct t; [|done].
      destruct (f_l f') as [|z zs] eqn:El; [by destruct (Hae2 eq_refl)|]. rewrite <- El in *.
      pose proof (unsnoc_spec (f_l f')) as Hu. unfold shift_back, c1. cbn [c_path c_sub]. fold c1. destruct (unsnoc (f_l f')) as [[l0 [k0 w]]|] eqn:Eu; [|by destruct (Hae2 eq_refl)].
      cbn [rbind].
      assert (k0 = Nil) as ->. { destruct Hf' as [Hfl _]. rewrite Hu in Hfl. apply Forall_app in Hfl as [_ Hfl]. apply Forall_cons in Hfl as [Hfl _]. by destruct k0. }
      set (c0 := mkCur _ _). assert (Hr0 : root_of c0 = root_of c1).
      { unfold root_of, c0, c1. cbn [c_path c_sub close_all]. rewrite <- close_shift, <- Hu. by destruct f'. }
      assert (HR0 : rights c0 = w :: rights c1). { unfold rights, c0, c1. cbn. rewrite cat_r_cons, elems_nil, Er. done. }
      assert (HL0 : lefts c0 ++ [w] = lefts c1). { unfold lefts, c0, c1. cbn. rewrite Hu, cat_l_app, cat_l_cons, cat_l_nil, !elems_nil, !app_nil_r, <- app_assoc. done. }
      destruct (next_spec kN (1 + length ps') c0 w (rights c1)) as (c' & -> & Hr' & Hn' & Hl' & HR'); [rewrite Hr0; exact Hw1|unfold normal, c0; cbn; auto|done|].
      cbn [rbind]. eexists _, _; split; [done|]. rewrite Hr', Hr0. split; [done|]. split; [done|]. cbn [b_root]. split; [congruence|]. split; [done|].
      by rewrite Hl', HL0, Hlefts.
    + cbn [rbind]. eexists _, _; split; [done|]. fold c1. split; [done|]. split; [done|]. cbn [b_root]. split; [done|]. split; [unfold normal, c1; cbn; rewrite Er; auto|]. by rewrite Hlefts.
Qed.
Lemma shape_hole b h c f ps t : shape b -> root_of c = b_root b -> c = mkCur (f :: ps) t -> wf h t -> ctx h (f :: ps) ->
  (if h then MK (mbefore ps ++ f_mark f :: mafter ps) else MK (mbefore (f :: ps) ++ lmarks t ++ mafter (f :: ps))) /\
  (h = 0 -> ps = [] -> count f <= b_cap b /\ 1 <= b_cap b <= kN) /\ (h <> 0 \/ ps <> [] -> b_cap b = kN).
Proof.
  intros (H & Hw & HM & H1 & H2 & _) Hr -> Ht Hctx. unfold root_of in Hr. cbn [c_path c_sub] in Hr. rewrite <- Hr in *.
  destruct (open_wf kN _ _ _ Hw) as (h' & -> & _ & Ht'). assert (h' = h) as ->. { rewrite <- (wf_height _ _ _ Ht), <- (wf_height _ _ _ Ht'). done. }
  specialize (HM (close_all_not_nil _ _ _)). split; [|split].
  - destruct h as [|h].
    + destruct t; [|done]. destruct Hctx as (? & ? & ?). by rewrite (lmarks_root kN) in HM.
    + by rewrite (lmarks_inner_root kN h) in HM.
  - intros -> ->. cbn in *. rewrite ncount_close in H1. auto.
  - intros Hx. apply H2. cbn. destruct h as [|h]; [destruct Hx as [|Hx]; [done|]; destruct ps; [done|]; cbn; lia|lia].
Qed.
(* remove n values of a leaf at the iterator *)
Lemma remove_leaf_spec b i c n : shape b -> it (b_root b) i c -> c_sub c = Nil ->
  n <= match c_path c with f :: _ => length (f_r f) | [] => 0 end -> c_path c <> [] ->
  exists c1 b' c', remove_values n c = Ok c1 /\ after_delete kN b n c1 = Ok (b', c') /\ shape b' /\ elems (b_root b') = remove_at i n (elems (b_root b)) /\ it (b_root b') i c' /\
    i + n <= length (elems (b_root b)).
Proof.
  intros Hb Hi Hs Hn Hp. destruct c as [[|f ps] t]; [done|]. cbn in Hs, Hn. subst t. pose proof Hi as (Hr & Hnm & Hlen).
  unfold remove_values. cbn [c_path c_sub]. replace (n <=? length (f_r f)) with true by lia.
  destruct (Hb) as (H & Hw & _). rewrite <- Hr in Hw. destruct (wf_nil_sub _ H Hw eq_refl) as [_ Hctx]. cbn [c_path] in Hctx.
  destruct (shape_hole b 0 _ f ps Nil Hb Hr eq_refl) as (HM & Hc1 & Hc2); [done|done|]. destruct Hctx as ((Hfl & Hfr) & Hcnt & Hps).
  destruct (it_split _ _ _ Hi) as [HLs HRs]. unfold lefts, rights in HLs, HRs. cbn [c_path c_sub] in HLs, HRs. rewrite elems_nil, app_nil_r in HLs.
  assert (Hdrop : cat_r (f_r f) = cat_r (take n (f_r f)) ++ cat_r (drop n (f_r f))) by (by rewrite <- cat_r_app, take_drop).
  assert (Htk : length (cat_r (take n (f_r f))) = n). { rewrite cat_r_leaf by (by apply Forall_take). rewrite map_length, take_length. lia. }
  assert (Hafter : cat_r (drop n (f_r f)) ++ after ps = drop (i + n) (elems (b_root b))).
  { rewrite <- drop_drop, <- HRs. cbn. rewrite Hdrop, <- app_assoc. by rewrite drop_app_alt by done. }
  assert (Hin : i + n <= length (elems (b_root b))).
  { rewrite <- Hr, root_elems, app_length. rewrite Hlen. unfold rights. cbn. rewrite Hdrop, !app_length, Htk. lia. }
  set (f1 := mkFrame (f_mark f) (f_l f) (drop n (f_r f))). 
  assert (Hel : elems (close_all (f1 :: ps) Nil) = remove_at i n (elems (b_root b))).
  { rewrite elems_root, elems_nil. unfold remove_at. rewrite <- Hafter, <- HLs. done. }
  destruct (after_delete_spec b n 0 f1 ps Nil) as (b' & c' & E & Hb' & He' & Hi').
  { split; [split; cbn; [done|by apply Forall_drop]|]. assert (count f1 <= count f) by (unfold count, f1; cbn; rewrite drop_length; lia).
    split; [lia|]. split; [done|]. split; [done|]. split; [done|]. split; [intros _ ?; specialize (Hc1 eq_refl H1); lia|]. split; [done|done]. }
  { rewrite Hel, (size_shape b Hb). unfold remove_at. rewrite app_length, take_length, drop_length. lia. }
  eexists _, b', c'. split; [done|]. split; [exact E|]. split; [done|]. split; [congruence|]. split; [|done].
  assert (Hli : length (before (f1 :: ps) ++ elems Nil) = i) by exact Hlen. by rewrite Hli in Hi'.
Qed.
Lemma remove_swap L pv v R : remove_at (length L) 1 (L ++ pv :: pv :: R) = remove_at (S (length L)) 1 (L ++ pv :: v :: R).
Proof.
  unfold remove_at. induction L as [|x L IH]; [done|]. cbn [length app take drop plus]. f_equal. exact IH.
Qed.
(** erase(iterator) *)
Theorem erase_spec b i c : shape b -> it (b_root b) i c -> i < length (elems (b_root b)) ->
  exists b' c', erase kN b c = Ok (b', c') /\ shape b' /\ elems (b_root b') = remove_at i 1 (elems (b_root b)) /\ it (b_root b') i c'.
Proof.
  intros Hb Hi Hlt'. unfold erase. destruct (it_split _ _ _ Hi) as [HLs HRs]. destruct (lookup_lt_is_Some_2 _ _ Hlt') as [v Hv].
  rewrite (drop_S _ v _ Hv) in HRs. pose proof Hi as (Hr & Hnm & Hlen).
  destruct (c_sub c) as [|a0 k0 rest0] eqn:Es; cbn [leaf].
  - assert (Hp : c_path c <> [] /\ 1 <= match c_path c with f :: _ => length (f_r f) | [] => 0 end).
    { unfold rights in HRs. unfold normal in Hnm. destruct (c_path c) as [|f ps] eqn:Ep; [done|]. split; [done|].
      destruct Hnm as [Hnm|[_ Hnm]]; [destruct (f_r f); cbn; [done|lia]|]. unfold rights in Hnm. rewrite Ep, HRs in Hnm. done. }
    destruct (remove_leaf_spec b i c 1) as (c1 & b' & c' & -> & E & H1 & H2 & H3 & _); auto; try apply Hp.
    cbn [rbind]. rewrite E. cbn [rbind]. eauto 10.
  - destruct c as [[|f ps] t]; cbn in Es; subst t; [by cbn in Hnm|]. cbn [c_path c_sub]. set (t := Node a0 k0 rest0) in *.
    unfold rights in HRs. cbn [c_path] in HRs. unfold normal in Hnm. cbn [c_path c_sub] in Hnm.
    destruct Hnm as [Hnm|[? _]]; [|done]. destruct (f_r f) as [|[v0 k1] r] eqn:Er; [done|].
    cbn [after] in HRs. rewrite Er, cat_r_cons in HRs. cbn in HRs. injection HRs as -> HRs.
    destruct (Hb) as (H & Hw & Hb').
    assert (Hw' : wf H (root_of (mkCur (f :: ps) t))) by (by rewrite Hr).
    destruct (open_wf kN _ _ _ Hw') as (h & HH & Hctx & Ht). cbn [c_path c_sub] in HH, Hctx, Ht. destruct h as [|h]; [done|].
    assert (HL : exists L pv, lefts (mkCur (f :: ps) t) = L ++ [pv]).
    { pose proof (wf_elems _ _ _ Ht) as Hne. unfold lefts. cbn [c_path c_sub]. pose proof (unsnoc_spec (before (f :: ps) ++ elems t)) as Hu. destruct (unsnoc _) as [[L pv]|]; [eauto|].
      apply app_eq_nil in Hu as [_ Hu]. done. }
    destruct HL as (L & pv & HL).
    assert (Hnm' : normal (mkCur (f :: ps) t)) by (unfold normal; cbn; rewrite Er; auto).
    destruct (prev_spec kN H _ L pv Hw' Hnm' HL) as (c1 & -> & Hr1 & Hn1 & Hl1 & HR1 & _ & _). cbn [rbind].
    rewrite (normal_value c1 pv _ Hn1 HR1). cbn [rbind].
    set (f1 := mkFrame (f_mark f) (f_l f) ((pv, k1) :: r)). set (cm := mkCur (f1 :: ps) t).
    destruct Hctx as ((Hfl & Hfr) & Hcnt & Hps). rewrite Er in Hfr.
    assert (Hctx1 : ctx (S h) (f1 :: ps)).
    { cbn [Balance.ctx]. split; [split; cbn; [done|]|]. { apply Forall_cons in Hfr as [? ?]. by constructor. } split; [|done]. unfold count in *. rewrite Er in Hcnt. exact Hcnt. }
    assert (Hwm : wf H (root_of cm)). { unfold root_of, cm. cbn [c_path c_sub]. rewrite HH. replace (S h + length (f :: ps)) with (S h + length (f1 :: ps)) by done. by apply close_wf. }
    assert (HLm : lefts cm = L ++ [pv]). { rewrite <- HL. done. }
    assert (Hnmm : normal cm) by (unfold normal, cm; cbn; auto).
    destruct (prev_spec kN H cm L pv Hwm Hnmm HLm) as (c2 & -> & Hr2 & Hn2 & Hl2 & HR2 & _ & Hs2). cbn [rbind]. specialize (Hs2 ltac:(done)).
    set (bm := mkBt (root_of cm) (b_size b) (b_cap b)).
    assert (Hem : elems (root_of cm) = L ++ [pv] ++ pv :: elems k1 ++ cat_r r ++ after ps).
    { rewrite root_elems, HLm. unfold rights, cm. cbn. rewrite cat_r_cons. cbn. by rewrite <- !app_assoc. }
    assert (Heo : elems (b_root b) = L ++ [pv] ++ v :: elems k1 ++ cat_r r ++ after ps).
    { rewrite <- Hr, root_elems, HL. unfold rights. cbn. rewrite Er, cat_r_cons. cbn. by rewrite <- !app_assoc. }
    assert (Hi' : i = S (length L)). { rewrite <- Hlen, HL, app_length. cbn. lia. }
    assert (Hbm : shape bm).
    { destruct Hb' as (HM & H1 & H2 & Hsz). exists H. unfold bm. cbn [b_root b_size b_cap]. split; [done|]. split; [|split; [|split; [done|]]].
      - intros _. specialize (HM ltac:(rewrite <- Hr; apply close_all_not_nil)). rewrite <- Hr in HM. unfold root_of, cm in *. cbn [c_path c_sub] in *.
        assert (Hctx0 : ctx (S h) (f :: ps)) by (cbn [Balance.ctx]; split; [split; [done|by rewrite Er]|split; done]).
        rewrite (lmarks_inner_root kN h) in HM by auto. rewrite (lmarks_inner_root kN h) by auto. revert HM. cbn. rewrite Er. done.
      - cbn in HH. lia.
      - rewrite Hsz, Heo, Hem, !app_length. done. }
    assert (Hi2 : it (root_of cm) (length L) c2). { split; [done|]. split; [done|]. by rewrite Hl2. }
    assert (Hp2 : c_path c2 <> [] /\ 1 <= match c_path c2 with f :: _ => length (f_r f) | [] => 0 end).
    { unfold rights in HR2. unfold normal in Hn2. destruct (c_path c2) as [|f2 ps2] eqn:Ep; [done|]. split; [done|].
      destruct Hn2 as [Hn2|[_ Hn2]]; [destruct (f_r f2); cbn; [done|lia]|]. unfold rights in Hn2. rewrite Ep, HR2 in Hn2. done. }
    destruct (remove_leaf_spec bm (length L) c2 1 Hbm Hi2 Hs2) as (c3 & b' & c4 & -> & E & Hsh & He & Hi4 & _); try apply Hp2.
    cbn [rbind]. unfold after_delete in *. change (b_size bm) with (b_size b) in E. change (b_cap bm) with (b_cap b) in E. rewrite E. cbn [rbind].
    assert (He' : elems (b_root b') = remove_at i 1 (elems (b_root b))).
    { rewrite He. unfold bm. cbn [b_root]. rewrite Hem, Heo, Hi'. apply remove_swap. }
    assert (Hlt4 : length L < length (elems (b_root b'))).
    { rewrite He'. unfold remove_at. rewrite app_length, take_length. lia. }
    destruct (next_it b' (length L) c4 Hsh Hi4 Hlt4) as (c5 & -> & Hi5). cbn [rbind]. exists b', c5. split; [done|]. split; [done|]. split; [done|]. by rewrite Hi'.
Qed.
End OpsFacts.
