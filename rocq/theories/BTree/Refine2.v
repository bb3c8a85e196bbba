(** Erasing ranges and keys, iteration and operations on whole containers act on the list of values. *)
From stdpp Require Import list.
From Coq Require Import Arith Lia ZifyBool ZifyNat Sorting.Sorted.
From Verif.Common Require Import Res.
From Verif.BTree Require Import Tree TreeFacts Balance Search Spec SearchFacts Ops Iter OpsFacts SpecFacts Refine.
Local Open Scope nat_scope.

Section Refine.
Context {V K : Type} (key : V -> K) (lt : K -> K -> bool) (kN : nat) (m : mode).
Context (Hlt : swo lt) (HkN : 3 <= kN).
Implicit Types (b src : btree V) (t : node V) (f : frame V) (fs ps gs : list (frame V)) (v : V) (k : K) (c d : cursor V) (l L R : list V).
Notation wf := (wf kN). Notation ctx := (ctx kN). Notation wff := (wff kN).
Notation srt := (sorted key lt (multi m)).
Notation shape := (shape kN).
Notation repr := (repr key lt kN m).
Notation lower := (lower key lt). Notation upper := (upper key lt). Notation has := (has key lt).
Notation set_insert := (set_insert key lt).

(** ** erase(first, last) *)
Theorem erase_range_spec b l i j c d : repr b l -> it (b_root b) i c -> it (b_root b) j d -> i <= j ->
  exists b' c', erase_range kN b c d = Ok (b', j - i, c') /\ repr b' (remove_at i (j - i) l) /\ it (b_root b') i c'.
Proof.
  intros Hb Hc Hd Hij. pose proof Hb as (Hsh & Hl & Hs). pose proof (it_bound key lt kN m b l j d Hb Hd) as Hjl. unfold erase_range.
  rewrite (distance_spec kN HkN b i j c d) by (auto; rewrite (repr_size key lt kN m b l Hb); lia). cbn [rbind].
  destruct (j - i =? 0) eqn:E0.
  { exists b, c. replace (j - i) with 0 by lia. split; [done|]. unfold remove_at. rewrite Nat.add_0_r, take_drop. done. }
  rewrite (repr_size key lt kN m b l Hb). destruct (j - i =? length l) eqn:E1.
  { destruct (end_it key lt kN m new_btree [] (repr_new key lt kN m HkN)) as (e & He & Hie). change (@clear V) with (@new_btree V). rewrite He. cbn [rbind].
    assert (i = 0) as -> by lia. exists new_btree, e. split; [done|]. split; [|done]. unfold remove_at. rewrite drop_ge by lia. apply (repr_new key lt kN m HkN). }
  assert (Hrepr : forall b', shape b' -> elems (b_root b') = remove_at i (j - i) (elems (b_root b)) -> repr b' (remove_at i (j - i) l)).
  { intros b' H1 H2. rewrite Hl in H2. split; [done|]. split; [done|]. by apply sorted_remove. }
  destruct (same_node c d) eqn:Esn.
  - destruct (remove_same key kN HkN b i j c d Hsh Hc Hd) as (c1 & b' & c' & -> & E & H1 & H2 & H3); [lia|done|]. cbn [rbind]. rewrite E. cbn [rbind]. exists b', c'. auto.
  - destruct (erase_loop_spec key kN HkN b i c (j - i) (j - i) Hsh Hc) as (b' & c' & -> & H1 & H2 & H3); [rewrite Hl; lia|lia|]. cbn [rbind]. exists b', c'. auto.
Qed.
(** ** erase(key) *)
Theorem erase_unique_spec b l k : multi m = false -> repr b l -> let n := if has k l then 1 else 0 in
  exists b', erase_unique key lt kN m b k = Ok (b', n) /\ repr b' (remove_at (lower k l) n l).
Proof.
  intros Hmu Hb n. unfold erase_unique. destruct (internal_find_spec key lt kN m Hlt HkN b l k Hb) as (o & -> & Ho). cbn [rbind]. subst n. destruct o as [c|].
  - destruct Ho as [-> (i & v & Hi & Hv & _ & Hlow)]. rewrite Hmu, andb_false_r in Hlow. rewrite <- Hlow by done.
    destruct (erase_it key lt kN m HkN b l i c Hb Hi) as (b' & c' & -> & Hb' & _); [by eapply lookup_lt_Some|]. cbn [rbind]. eauto.
  - rewrite Ho. exists b. split; [done|]. unfold remove_at. by rewrite Nat.add_0_r, take_drop.
Qed.
Theorem erase_multi_spec b l k : repr b l -> let n := upper k l - lower k l in
  exists b', erase_multi key lt kN m b k = Ok (b', n) /\ repr b' (remove_at (lower k l) n l).
Proof.
  intros Hb n. unfold erase_multi. destruct (internal_lower_spec key lt kN m Hlt HkN b l k Hb) as (o & -> & Ho). cbn [rbind].
  pose proof (lower_upper key lt Hlt k l) as Hlu. pose proof (upper_le key lt k l) as Hul. destruct o as [c|].
  - destruct Ho as [Hc _]. destruct (upper_bound_spec key lt kN m Hlt HkN b l k Hb) as (d & -> & Hd). cbn [rbind].
    destruct (erase_range_spec b l _ _ c d Hb Hc Hd Hlu) as (b' & c' & -> & Hb' & _). cbn [rbind]. eauto.
  - exists b. subst n. replace (upper k l - lower k l) with 0 by lia. split; [done|]. unfold remove_at. by rewrite Nat.add_0_r, take_drop.
Qed.
(** ** erase_if *)
Lemma erase_if_loop_spec {S} (pred : S -> V -> S * bool) fuel s b i c : shape b -> it (b_root b) i c -> length (elems (b_root b)) - i <= fuel ->
  let '(s', r) := kept pred s (drop i (elems (b_root b))) in
  exists b', erase_if_loop kN fuel pred s b c = Ok (b', s') /\ shape b' /\ elems (b_root b') = take i (elems (b_root b)) ++ r.
Proof.
  revert s b i c. induction fuel as [|fuel IH]; intros s b i c Hb Hc Hf; cbn [erase_if_loop]; destruct (end_spec kN b Hb) as (e & -> & He); cbn [rbind];
    rewrite (same_it kN b _ _ c e Hb Hc He); pose proof (it_le _ _ _ Hc) as Hle.
  - replace (i =? _) with true by lia. rewrite drop_ge, take_ge by lia. cbn. exists b. split; [done|]. split; [done|]. by rewrite app_nil_r.
  - destruct (i =? length (elems (b_root b))) eqn:E.
    { rewrite drop_ge, take_ge by lia. cbn. exists b. split; [done|]. split; [done|]. by rewrite app_nil_r. }
    destruct (lookup_lt_is_Some_2 (elems (b_root b)) i) as [v Hv]; [lia|]. rewrite (it_value _ _ _ v Hc Hv). cbn [rbind].
    rewrite (drop_S _ v _ Hv). cbn [kept]. destruct (pred s v) as [s1 yes] eqn:Ep. destruct yes.
    + destruct (erase_spec key kN HkN b i c Hb Hc) as (b' & c' & -> & Hb' & He' & Hi'); [lia|]. cbn [rbind].
      specialize (IH s1 b' i c' Hb' Hi'). rewrite He', length_remove in IH by lia. unfold remove_at in IH.
      rewrite take_app_alt, drop_app_alt in IH by (rewrite take_length; lia). rewrite Nat.add_1_r in IH.
      destruct (kept pred s1 (drop (Datatypes.S i) (elems (b_root b)))) as [s2 r]. apply IH. lia.
    + destruct (next_it kN b i c Hb Hc) as (c' & -> & Hc'); [lia|]. cbn [rbind]. specialize (IH s1 b (Datatypes.S i) c' Hb Hc').
      destruct (kept pred s1 (drop (Datatypes.S i) (elems (b_root b)))) as [s2 r]. destruct IH as (b2 & -> & Hb2 & He2); [lia|].
      exists b2. split; [done|]. split; [done|]. rewrite He2, (take_S_r _ _ v Hv), <- app_assoc. done.
Qed.
Lemma sorted_filter (p : V -> bool) l : srt l -> srt (List.filter p l).
Proof.
  induction 1 as [|x l Hs IH Hf]; cbn; [constructor|]. destruct (p x); [|done]. constructor; [done|]. apply List.Forall_forall. intros y Hy. apply List.filter_In in Hy as [Hy _].
  rewrite List.Forall_forall in Hf. auto.
Qed.
Lemma sorted_kept {S} (pred : S -> V -> S * bool) s l : srt l -> srt (snd (kept pred s l)).
Proof.
  intros Hs. revert s. induction Hs as [|x l Hs IH Hf]; intros s; cbn [kept]; [constructor|]. destruct (pred s x) as [s1 yes]. specialize (IH s1).
  assert (Hin : forall s2 y, In y (snd (kept pred s2 l)) -> In y l).
  { clear. induction l as [|a l IH]; intros s2 y; cbn [kept]; [done|]. destruct (pred s2 a) as [s3 z]. specialize (IH s3 y). destruct (kept pred s3 l) as [s4 r]. cbn in *.
    destruct z; [by right; auto|]. intros [->|]; [by left|by right; auto]. }
  specialize (Hin s1). destruct (kept pred s1 l) as [s2 r]. cbn [snd] in *. destruct yes; [done|]. constructor; [done|]. apply List.Forall_forall.
  intros y Hy. rewrite List.Forall_forall in Hf. auto.
Qed.
Theorem erase_if_spec {S} (pred : S -> V -> S * bool) s b l : repr b l ->
  exists b', erase_if kN pred s b = Ok (b', fst (kept pred s l)) /\ repr b' (snd (kept pred s l)).
Proof.
  intros Hb. unfold erase_if. destruct (begin_it key lt kN m b l Hb) as (c & -> & Hc). cbn [rbind]. pose proof Hb as (Hsh & Hl & Hs).
  pose proof (erase_if_loop_spec pred (b_size b) s b 0 c Hsh Hc) as Hx. rewrite Hl in Hx. change (drop 0 l) with l in Hx. change (take 0 l) with (@nil V) in Hx. cbn [app] in Hx. pose proof (sorted_kept pred s l Hs) as Hsk.
  destruct (kept pred s l) as [s' r]. cbn [fst snd] in *. destruct Hx as (b' & -> & Hb' & He'); [rewrite (repr_size key lt kN m b l Hb); lia|].
  exists b'. split; [done|]. split; [done|]. split; done.
Qed.

(** ** iteration *)
Lemma values_from_spec fuel b i c d : shape b -> it (b_root b) i c -> it (b_root b) (length (elems (b_root b))) d -> length (elems (b_root b)) - i <= fuel ->
  values_from fuel c d = Ok (drop i (elems (b_root b))).
Proof.
  intros Hb. revert i c. induction fuel as [|fuel IH]; intros i c Hc Hd Hf; cbn [values_from]; rewrite (same_it kN b _ _ c d Hb Hc Hd); pose proof (it_le _ _ _ Hc) as Hle.
  - replace (i =? _) with true by lia. by rewrite drop_ge by lia.
  - destruct (i =? length (elems (b_root b))) eqn:E; [by rewrite drop_ge by lia|].
    destruct (lookup_lt_is_Some_2 (elems (b_root b)) i) as [v Hv]; [lia|]. rewrite (it_value _ _ _ v Hc Hv). cbn [rbind].
    destruct (next_it kN b i c Hb Hc) as (c' & -> & Hc'); [lia|]. cbn [rbind]. rewrite (IH (S i)) by (auto; lia). cbn [rbind]. by rewrite (drop_S _ v _ Hv).
Qed.
Theorem values_spec b : shape b -> values b = Ok (elems (b_root b)).
Proof.
  intros Hb. unfold values. destruct (begin_spec kN b Hb) as (c & -> & Hc). destruct (end_spec kN b Hb) as (d & -> & Hd). cbn [rbind].
  rewrite (values_from_spec _ b 0) by (auto; rewrite (size_shape kN b Hb); lia). done.
Qed.
Lemma rvalues_from_spec fuel b i c d : shape b -> it (b_root b) i c -> it (b_root b) 0 d -> i <= fuel -> rvalues_from fuel c d = Ok (rev (take i (elems (b_root b)))).
Proof.
  intros Hb. revert i c. induction fuel as [|fuel IH]; intros i c Hc Hd Hf; cbn [rvalues_from]; rewrite (same_it kN b _ _ c d Hb Hc Hd); pose proof (it_le _ _ _ Hc) as Hle.
  - assert (i = 0) as -> by lia. done.
  - destruct i as [|i]; [done|]. cbn [Nat.eqb]. destruct (prev_it kN b i c Hb Hc) as (c' & -> & Hc' & _). cbn [rbind].
    destruct (lookup_lt_is_Some_2 (elems (b_root b)) i) as [v Hv]; [lia|]. rewrite (it_value _ _ _ v Hc' Hv). cbn [rbind].
    rewrite (IH i) by (auto; lia). cbn [rbind]. rewrite (take_S_r _ _ v Hv), rev_app_distr. done.
Qed.
Theorem rvalues_spec b : shape b -> rvalues b = Ok (rev (elems (b_root b))).
Proof.
  intros Hb. unfold rvalues. destruct (begin_spec kN b Hb) as (c & -> & Hc). destruct (end_spec kN b Hb) as (d & -> & Hd). cbn [rbind].
  rewrite (rvalues_from_spec _ b _ d c Hb Hd Hc) by (rewrite (size_shape kN b Hb); lia). by rewrite take_ge by lia.
Qed.

(** ** copies *)
Lemma sorted_snoc v l R : srt (l ++ v :: R) -> upper (key v) l = length l /\ (multi m = false -> has (key v) l = false).
Proof.
  intros Hs. apply ss_app in Hs as (H1 & _ & H3). assert (Hup : upper (key v) l = length l).
  { unfold Spec.upper. rewrite filter_all; [done|]. eapply Forall_impl; [exact H3|]. cbn. intros x Hx. apply Forall_cons in Hx as [Hx _]. unfold rel in Hx.
    destruct (multi m); [done|]. by rewrite (lt_asym lt Hlt _ _ Hx). }
  split; [done|]. intros Hmu. rewrite (has_spec key lt (multi m) Hlt) by done. assert (lower (key v) l = length l); [|lia].
  unfold Spec.lower. rewrite filter_all; [done|]. eapply Forall_impl; [exact H3|]. cbn. intros x Hx. apply Forall_cons in Hx as [Hx _]. unfold rel in Hx. by rewrite Hmu in Hx.
Qed.
Lemma insert_end v l : insert_at (length l) v l = l ++ [v].
Proof. unfold insert_at. by rewrite take_ge, drop_ge by lia. Qed.
Lemma append_all_spec b l vs : repr b l -> l <> [] -> srt (l ++ vs) -> exists b', append_all kN b vs = Ok b' /\ repr b' (l ++ vs).
Proof.
  revert b l. induction vs as [|v vs IH]; intros b l Hb Hne Hs; cbn [append_all]; [rewrite app_nil_r; eauto|].
  destruct (end_it key lt kN m b l Hb) as (e & -> & He). cbn [rbind]. destruct (sorted_snoc v l vs Hs) as [Hup Hh].
  destruct (emplace_it key lt kN m Hlt HkN b l (length l) e v Hb He Hne) as (b' & c' & -> & Hb' & _); [pose proof (lower_le key lt (key v) l); lia|done|].
  cbn [rbind]. rewrite insert_end in Hb'. destruct (IH b' (l ++ [v]) Hb') as (b2 & -> & Hb2); [by destruct l|by rewrite <- app_assoc|].
  exists b2. split; [done|]. by rewrite <- app_assoc in Hb2.
Qed.
Theorem copy_spec b l : repr b l -> exists b', copy key lt kN m b = Ok b' /\ repr b' l.
Proof.
  intros Hb. pose proof Hb as (Hsh & Hl & Hs). unfold copy. rewrite (values_spec b Hsh), Hl. cbn [rbind]. destruct l as [|v l]; [exists new_btree; split; [done|]; apply (repr_new key lt kN m HkN)|].
  destruct (insert_multi_gen key lt kN m Hlt HkN new_btree [] v) as (b' & c' & -> & Hb' & _); [done|apply (repr_new key lt kN m HkN)|]. cbn [rbind].
  destruct (append_all_spec b' [v] l Hb') as (b2 & -> & Hb2); [done|done|]. eauto.
Qed.

(** ** merge *)
(* what stays in the source *)
Fixpoint left_over l vs : list V := match vs with [] => [] | v :: vs' => if has (key v) l then v :: left_over l vs' else left_over (set_insert v l) vs' end.
Lemma merge_loop_spec fuel b l src i c : multi m = false -> repr b l -> shape src -> it (b_root src) i c -> length (elems (b_root src)) - i <= fuel ->
  exists b' src', merge_loop key lt kN m fuel b src c = Ok (b', src') /\ repr b' (fold_left (fun l v => set_insert v l) (drop i (elems (b_root src))) l) /\
    shape src' /\ elems (b_root src') = take i (elems (b_root src)) ++ left_over l (drop i (elems (b_root src))).
Proof.
  intros Hmu. revert b l src i c. induction fuel as [|fuel IH]; intros b l src i c Hb Hs Hc Hf; cbn [merge_loop]; destruct (end_spec kN src Hs) as (e & -> & He); cbn [rbind];
    rewrite (same_it kN src _ _ c e Hs Hc He); pose proof (it_le _ _ _ Hc) as Hle.
  - replace (i =? _) with true by lia. exists b, src. split; [done|]. rewrite drop_ge, take_ge by lia. cbn. by rewrite app_nil_r.
  - destruct (i =? length (elems (b_root src))) eqn:E.
    { exists b, src. split; [done|]. rewrite drop_ge, take_ge by lia. cbn. by rewrite app_nil_r. }
    destruct (lookup_lt_is_Some_2 (elems (b_root src)) i) as [v Hv]; [lia|]. rewrite (it_value _ _ _ v Hc Hv). cbn [rbind].
    rewrite (drop_S _ v _ Hv). cbn [fold_left left_over].
    destruct (insert_unique_spec key lt kN m Hlt HkN b l v Hmu Hb) as (b' & c' & -> & Hb' & _ & _). cbn [rbind]. destruct (has (key v) l) eqn:Eh; cbn [negb].
    + destruct (next_it kN src i c Hs Hc) as (c1 & -> & Hc1); [lia|]. cbn [rbind].
      assert (set_insert v l = l) as El by (unfold Refine.set_insert; by rewrite Eh). rewrite El in *.
      destruct (IH b' l src (S i) c1 Hb' Hs Hc1) as (b2 & s2 & -> & H1 & H2 & H3); [lia|]. exists b2, s2. split; [done|]. split; [done|]. split; [done|].
      rewrite H3, (take_S_r _ _ v Hv), <- app_assoc. done.
    + destruct (erase_spec key kN HkN src i c Hs Hc) as (s1 & c1 & -> & Hs1 & Hes & Hc1); [lia|]. cbn [rbind].
      destruct (IH b' _ s1 i c1 Hb' Hs1 Hc1) as (b2 & s2 & -> & H1 & H2 & H3); [rewrite Hes, length_remove; lia|]. exists b2, s2.
      rewrite Hes in H1, H3. unfold remove_at in H1, H3. rewrite drop_app_alt in H1 by (rewrite take_length; lia). rewrite take_app_alt, drop_app_alt in H3 by (rewrite take_length; lia).
      rewrite Nat.add_1_r in H1, H3. auto.
Qed.
Theorem merge_unique_spec b l src : multi m = false -> repr b l -> shape src ->
  exists b' src', merge_unique key lt kN m b src = Ok (b', src') /\ repr b' (fold_left (fun l v => set_insert v l) (elems (b_root src)) l) /\
    shape src' /\ elems (b_root src') = left_over l (elems (b_root src)).
Proof.
  intros Hmu Hb Hs. unfold merge_unique. destruct (begin_spec kN src Hs) as (c & -> & Hc). cbn [rbind].
  destruct (merge_loop_spec (b_size src) b l src 0 c Hmu Hb Hs Hc) as (b' & s' & -> & H1 & H2 & H3); [rewrite (size_shape kN src Hs); lia|]. eauto 10.
Qed.
Theorem merge_multi_spec b l src : multi m = true -> repr b l -> shape src ->
  exists b', merge_multi key lt kN m b src = Ok (b', new_btree) /\ repr b' (fold_left (fun l v => insert_at (upper (key v) l) v l) (elems (b_root src)) l).
Proof.
  intros Hmu Hb Hs. unfold merge_multi. rewrite (values_spec src Hs). cbn [rbind].
  destruct (insert_iterator_multi_spec key lt kN m Hlt HkN b l (elems (b_root src)) Hmu Hb) as (b' & -> & Hb'). cbn [rbind]. eauto.
Qed.
Theorem extract_spec b l i c v : repr b l -> it (b_root b) i c -> l !! i = Some v -> exists b', extract kN b c = Ok (b', v) /\ repr b' (remove_at i 1 l).
Proof.
  intros Hb Hc Hv. unfold extract. pose proof Hb as (_ & Hl & _). rewrite (it_value _ _ _ v Hc) by (by rewrite Hl). cbn [rbind].
  destruct (erase_it key lt kN m HkN b l i c Hb Hc) as (b' & c' & -> & Hb' & _); [by eapply lookup_lt_Some|]. cbn [rbind]. eauto.
Qed.

(** ** writing through an iterator *)
Lemma assign_spec b l i c v w : repr b l -> it (b_root b) i c -> l !! i = Some w -> key v = key w ->
  exists b' c', assign b c v = Ok (b', c') /\ repr b' (<[i := v]> l) /\ it (b_root b') i c' /\ pos_of c' = pos_of c.
Proof.
  intros Hb Hc Hw Hk. pose proof Hb as ((H & Hwf & HM & H1 & H2 & Hsz) & Hl & Hs). pose proof Hc as (Hr & Hn & Hi).
  destruct (it_split _ _ _ Hc) as [HLs HRs]. rewrite Hl in HLs, HRs. rewrite (drop_S _ w _ Hw) in HRs.
  destruct c as [[|f ps] t]; [done|]. unfold assign, rights in *. cbn [c_path c_sub after] in *.
  assert (exists t' r, f_r f = (w, t') :: r) as (t' & r & Efr).
  { unfold normal, rights in Hn. cbn [c_path c_sub after] in Hn. destruct (f_r f) as [|[w' t'] r] eqn:E.
    - destruct Hn as [?|[_ Hn]]; [done|]. congruence.
    - rewrite cat_r_cons in HRs. cbn in HRs. injection HRs as -> _. eauto. }
  rewrite Efr. set (f1 := mkFrame _ _ _). set (c' := mkCur (f1 :: ps) t).
  rewrite Efr, cat_r_cons in HRs. cbn in HRs. injection HRs as HRs.
  assert (Hroot' : elems (root_of c') = <[i := v]> l).
  { rewrite root_elems. change (lefts c') with (lefts (mkCur (f :: ps) t)). rewrite HLs. unfold rights, c'. cbn. rewrite cat_r_cons. cbn. rewrite HRs.
    rewrite <- (take_drop_middle l i w Hw) at 3. rewrite insert_app_r_alt by (rewrite take_length; lia).
    rewrite take_length. apply lookup_lt_Some in Hw. replace (i - i `min` length l) with 0 by lia. done. }
  rewrite <- Hr in Hwf. destruct (open_wf kN _ _ _ Hwf) as (h & HH & Hctx & Ht). cbn [c_path c_sub] in HH, Hctx, Ht.
  assert (Hctx1 : ctx h (f1 :: ps)).
  { destruct Hctx as ((Ha & Hbb) & Hcnt & Hps). rewrite Efr in Hbb. split; [split; cbn; [done|]|]. { apply Forall_cons in Hbb as [? ?]. by constructor. } split; [|done]. unfold count in *. rewrite Efr in Hcnt. exact Hcnt. }
  eexists _, c'. split; [done|]. cbn [b_root]. split; [|split].
  - split; [|split; [done|]].
    + exists H. cbn [b_root b_size b_cap]. split; [|split; [|split; [|split; [done|]]]].
      * unfold root_of, c'. cbn [c_path c_sub]. rewrite HH. by apply (close_wf kN h (f1 :: ps)).
      * intros _. specialize (HM ltac:(rewrite <- Hr; apply close_all_not_nil)). rewrite <- Hr in HM. unfold root_of, c' in *. cbn [c_path c_sub] in *. destruct h as [|h].
        -- destruct t; [|done]. destruct Hctx as (? & ? & ?), Hctx1 as (? & ? & ?). rewrite (lmarks_root kN) in HM by auto. rewrite (lmarks_root kN) by auto. done.
        -- rewrite (lmarks_inner_root kN h) in HM by auto. rewrite (lmarks_inner_root kN h) by auto. revert HM. cbn. rewrite Efr. done.
      * intros HH1. specialize (H1 HH1). rewrite <- Hr in H1. unfold root_of, c' in *. cbn [c_path c_sub] in *. assert (ps = []) as -> by (destruct ps; [done|cbn in HH; lia]).
        cbn [close_all] in *. rewrite ncount_close in *. unfold count in *. rewrite Efr in H1. exact H1.
      * rewrite Hroot', insert_length, Hsz, Hl. done.
    + eapply (sorted_same_keys key lt (multi m) l); [|done]. rewrite list_fmap_insert. change (key <$> l) with (map key l). rewrite list_insert_id; [done|].
      rewrite list_lookup_fmap, Hw, Hk. done.
  - split; [done|]. split; [|exact Hi]. unfold normal. cbn. by left.
  - done.
Qed.

(** ** comparison, height *)
Theorem equals_spec (eqv : V -> V -> bool) x y : shape x -> shape y ->
  equals eqv x y = Ok ((length (elems (b_root x)) =? length (elems (b_root y))) && forallb (fun p => eqv (fst p) (snd p)) (combine (elems (b_root x)) (elems (b_root y)))).
Proof.
  intros Hx Hy. unfold equals. rewrite (size_shape kN x Hx), (size_shape kN y Hy). destruct (_ =? _); [|done]. rewrite (values_spec x Hx), (values_spec y Hy). done.
Qed.
Theorem less_spec (ltv : V -> V -> bool) x y : shape x -> shape y -> less ltv x y = Ok (lexless ltv (elems (b_root x)) (elems (b_root y))).
Proof. intros Hx Hy. unfold less. rewrite (values_spec x Hx), (values_spec y Hy). done. Qed.
Lemma go_left_depth h t ps : wf h t -> length (c_path (go_left t ps)) = h + length ps.
Proof.
  revert h ps. induction t as [|a k0 IH rest]; intros h ps Hw; destruct h as [|h]; try done. cbn [go_left]. cbn in Hw. destruct Hw as (_ & Hk & _).
  rewrite (IH h) by done. cbn. lia.
Qed.
Lemma size_bound h t : wf h t -> 2 ^ h <= S (length (elems t)).
Proof.
  revert t. induction h as [|h IH]; intros [|a k0 rest] Hw; try done. cbn in Hw. destruct Hw as (Hc & Hk & Hr).
  rewrite elems_node, app_length. destruct rest as [|[v k1] rest]; [cbn in Hc; lia|]. rewrite cat_r_cons. cbn [length app]. rewrite app_length.
  pose proof (IH k0 Hk). apply Forall_cons in Hr as [Hr _]. pose proof (IH k1 Hr). cbn [Nat.pow]. lia.
Qed.
Theorem height_spec b : shape b -> exists h, height_ b = Ok h /\ 2 ^ h <= S (length (elems (b_root b))) /\ wf h (b_root b).
Proof.
  intros Hb. pose proof Hb as (H & Hw & HM & _). unfold height_. destruct (empty b) eqn:E.
  - rewrite (empty_shape key kN HkN b Hb E). exists 0. split; [done|]. split; [cbn; lia|done].
  - unfold begin_. pose proof (it_begin kN H _ Hw) as Hi. rewrite (it_is_first kN H _ _ Hw HM Hi). cbn [rbind]. exists H. rewrite (go_left_depth H) by done. cbn [length].
    rewrite Nat.add_0_r. split; [done|]. split; [by apply size_bound|done].
Qed.
End Refine.
