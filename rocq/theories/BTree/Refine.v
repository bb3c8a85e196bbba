(** Every operation of the tree acts on the sorted list of its values. *)
From stdpp Require Import list.
From Coq Require Import Arith Lia ZifyBool ZifyNat Sorting.Sorted.
From Verif.Common Require Import Res.
From Verif.BTree Require Import Tree TreeFacts Balance Search Spec SearchFacts Ops Iter OpsFacts SpecFacts.
Local Open Scope nat_scope.

Section Refine.
Context {V K : Type} (key : V -> K) (lt : K -> K -> bool) (kN : nat) (m : mode).
Context (Hlt : swo lt) (HkN : 3 <= kN).
Implicit Types (b : btree V) (t : node V) (f : frame V) (fs ps gs : list (frame V)) (v : V) (k : K) (c d : cursor V) (l L R : list V).
Notation wf := (wf kN). Notation ctx := (ctx kN). Notation wff := (wff kN).
Notation srt := (sorted key lt (multi m)).
Notation shape := (shape kN).
Notation repr := (repr key lt kN m).
Notation lower := (lower key lt). Notation upper := (upper key lt). Notation has := (has key lt).

Lemma repr_shape b l : repr b l -> shape b.
Proof. by intros [? _]. Qed.
Lemma repr_sorted b l : repr b l -> srt l.
Proof. by intros (_ & _ & ?). Qed.
Lemma repr_size b l : repr b l -> b_size b = length l.
Proof. intros (H & <- & _). by apply (size_shape kN). Qed.
Lemma repr_new : repr new_btree [].
Proof. split; [by apply shape_new|]. split; [done|constructor]. Qed.
Lemma repr_empty b l : repr b l -> empty b = (length l =? 0).
Proof. intros H. unfold empty. by rewrite (repr_size b l). Qed.
Lemma repr_nonempty_root b l : repr b l -> l <> [] -> b_root b <> Nil.
Proof. intros (_ & <- & _) Hl E. rewrite E in Hl. done. Qed.

(** ** searching *)
Lemma climb_result b c : root_of c = b_root b -> match internal_last c with
  | Some c' => it (b_root b) (length (lefts c)) c' /\ rights c <> []
  | None => rights c = []
  end.
Proof.
  intros Hr. unfold internal_last, rights. destruct c as [[|f ps] t]; [done|]. cbn [c_path c_sub]. pose proof (climb_spec f t ps) as Hc.
  destruct (climb f t ps) as [c'|]; [|done]. destruct Hc as (H1 & H2 & (g & gs & E & Hg) & H4). split.
  - split; [rewrite H1; exact Hr|]. split; [unfold normal; rewrite E; auto|]. by rewrite H4.
  - intros HH. rewrite HH in H2. unfold rights in H2. rewrite E in H2. apply after_nil_inv in H2. apply Forall_cons in H2 as [? _]. done.
Qed.
Lemma lower_pick k (stop : bool) : (stop = true -> three m = true) -> forall ks, sorted (fun x : K => x) lt (multi m) ks ->
  let '(i, e) := node_lower lt m k ks in partition_point (fun x => lt x k) ks i /\ (stop = true -> (forall x, lt x k = lt x k) /\ exact_at lt k ks i e /\ (e = true -> i < length ks)).
Proof.
  intros Hst ks Hs. pose proof (node_lower_spec lt Hlt m k ks Hs) as H. destruct (node_lower lt m k ks) as [i e]. destruct H as [H1 H2]. split; [done|].
  intros Hs'. rewrite (Hst Hs') in H2. split; [done|done].
Qed.
Theorem internal_lower_spec b l k : repr b l -> exists o, internal_lower_bound key lt m b k = Ok o /\
  match o with Some c => it (b_root b) (lower k l) c /\ lower k l < length l | None => lower k l = length l end.
Proof.
  intros ((H & Hw & _) & Hl & Hs). unfold internal_lower_bound. rewrite (wf_height _ _ _ Hw).
  destruct (descend_spec key lt kN m Hlt HkN false (node_lower lt m k) (fun x => lt x k) k H (b_root b) []) as (c & e & -> & Hroot & Hres); auto; [by apply mono_lower|by apply lower_pick|by rewrite Hl|].
  cbn [rbind]. eexists; split; [done|]. destruct e; [destruct Hres; done|]. destruct Hres as (Hsub & _ & L & R & HLR & Hb & Ha & HfL & HfR & _).
  pose proof (climb_result b c Hroot) as Hc. cbn in Hb, Ha. rewrite app_nil_r in Ha.
  assert (Hlow : lower k l = length L). { rewrite <- Hl, HLR. by apply lower_split. }
  assert (Hlefts : length (lefts c) = length L) by (unfold lefts; by rewrite Hb, Hsub, elems_nil, app_nil_r).
  assert (Hlen : length l = length L + length R) by (by rewrite <- Hl, HLR, app_length).
  unfold rights in Hc. rewrite Ha in Hc. destruct (internal_last c) as [c'|].
  - destruct Hc as [Hi HR]. rewrite Hlefts in Hi. rewrite Hlow. split; [done|]. destruct R; [done|]. cbn in Hlen. lia.
  - rewrite Hc in Hlen. cbn in Hlen. lia.
Qed.
Theorem internal_upper_spec b l k : repr b l -> exists o, internal_upper_bound key lt m b k = Ok o /\
  match o with Some c => it (b_root b) (upper k l) c /\ upper k l < length l | None => upper k l = length l end.
Proof.
  intros ((H & Hw & _) & Hl & Hs). unfold internal_upper_bound. rewrite (wf_height _ _ _ Hw).
  destruct (descend_spec key lt kN m Hlt HkN false (node_upper lt m k) (fun x => negb (lt k x)) k H (b_root b) []) as (c & e & -> & Hroot & Hres); auto; [by apply mono_upper| |by rewrite Hl|].
  { intros ks Hks. pose proof (node_upper_spec lt Hlt m k ks Hks) as Hn. destruct (node_upper lt m k ks). split; [tauto|done]. }
  cbn [rbind]. eexists; split; [done|]. destruct e; [destruct Hres; done|]. destruct Hres as (Hsub & _ & L & R & HLR & Hb & Ha & HfL & HfR & _).
  pose proof (climb_result b c Hroot) as Hc. cbn in Hb, Ha. rewrite app_nil_r in Ha.
  assert (Hup : upper k l = length L). { rewrite <- Hl, HLR. by apply upper_split. }
  assert (Hlefts : length (lefts c) = length L) by (unfold lefts; by rewrite Hb, Hsub, elems_nil, app_nil_r).
  assert (Hlen : length l = length L + length R) by (by rewrite <- Hl, HLR, app_length).
  unfold rights in Hc. rewrite Ha in Hc. destruct (internal_last c) as [c'|].
  - destruct Hc as [Hi HR]. rewrite Hlefts in Hi. rewrite Hup. split; [done|]. destruct R; [done|]. cbn in Hlen. lia.
  - rewrite Hc in Hlen. cbn in Hlen. lia.
Qed.
Lemma internal_end_spec b l o i : repr b l -> match o with Some c => it (b_root b) i c /\ i < length l | None => i = length l end ->
  exists c, internal_end b o = Ok c /\ it (b_root b) i c.
Proof.
  intros (Hb & <- & _) Ho. destruct o as [c|]; cbn.
  - destruct Ho. eauto.
  - subst i. by apply (end_spec kN).
Qed.
Theorem lower_bound_spec b l k : repr b l -> exists c, lower_bound key lt m b k = Ok c /\ it (b_root b) (lower k l) c.
Proof. intros Hb. unfold lower_bound. destruct (internal_lower_spec b l k Hb) as (o & -> & Ho). cbn. eapply internal_end_spec; eauto. Qed.
Theorem upper_bound_spec b l k : repr b l -> exists c, upper_bound key lt m b k = Ok c /\ it (b_root b) (upper k l) c.
Proof. intros Hb. unfold upper_bound. destruct (internal_upper_spec b l k Hb) as (o & -> & Ho). cbn. eapply internal_end_spec; eauto. Qed.

(* the lookup shared by internal_find and insert_unique *)
Definition probe (c : cursor V) (e : bool) k : res (option (cursor V)) :=
  if three m then Ok (if e then Some c else None)
  else match internal_last c with
       | Some c' => let* w := value c' in Ok (if lt k (key w) then None else Some c')
       | None => Ok None
       end%res.
(* an iterator to a value equivalent to k: the first one, unless the order is three-way and keys may repeat *)
Definition hit b l k c : Prop := exists i v, it (b_root b) i c /\ l !! i = Some v /\ equiv lt (key v) k = true /\ (three m && multi m = false -> i = lower k l).
Lemma probe_spec b l k : repr b l -> exists c e o, internal_locate key lt m b k = Ok (c, e) /\ probe c e k = Ok o /\ root_of c = b_root b /\
  match o with
  | Some c' => has k l = true /\ hit b l k c'
  | None => has k l = false /\ c_sub c = Nil /\ (b_root b <> Nil -> c_path c <> []) /\ length (lefts c) = lower k l
  end.
Proof.
  intros Hrep. pose proof Hrep as ((H & Hw & _) & Hl & Hs). unfold internal_locate. rewrite (wf_height _ _ _ Hw).
  destruct (descend_spec key lt kN m Hlt HkN (three m) (node_lower lt m k) (fun x => lt x k) k H (b_root b) []) as (c & e & -> & Hroot & Hres); auto; [by apply mono_lower|by apply lower_pick|by rewrite Hl|].
  cbn [close_all] in Hroot. unfold probe. destruct e.
  - destruct Hres as (E3 & f & gs & v & t' & r & Hp & Hfr & H1 & H2). rewrite E3. eexists c, true, (Some c). split; [done|]. split; [done|]. split; [done|].
    assert (Hi : it (b_root b) (length (lefts c)) c). { split; [done|]. split; [|done]. unfold normal. rewrite Hp. left. by rewrite Hfr. }
    assert (Hv : l !! length (lefts c) = Some v).
    { rewrite <- Hl, <- Hroot, root_elems. rewrite lookup_app_r by lia. rewrite Nat.sub_diag. unfold rights. rewrite Hp. cbn. rewrite Hfr, cat_r_cons. done. }
    pose proof (lower_lookup key lt (multi m) Hlt k l _ v Hs Hv) as HL. pose proof (upper_lookup key lt (multi m) Hlt k l _ v Hs Hv) as HU.
    split; [rewrite (has_spec key lt (multi m) Hlt k l Hs); lia|]. exists (length (lefts c)), v. split; [done|]. split; [done|]. unfold equiv. split; [by rewrite H1, H2|].
    intros Hmu. rewrite E3 in Hmu. cbn in Hmu. pose proof (unique_upper key lt (multi m) Hlt k l Hmu Hs). lia.
  - destruct Hres as (Hsub & Hne & L & R & HLR & Hb & Ha & HfL & HfR & Hst). cbn in Hb, Ha. rewrite app_nil_r in Ha.
    assert (Hlow : lower k l = length L). { rewrite <- Hl, HLR. by apply lower_split. }
    assert (Hlefts : length (lefts c) = length L) by (unfold lefts; by rewrite Hb, Hsub, elems_nil, app_nil_r).
    assert (Hnone : Forall (fun v => lt k (key v) = true) R -> has k l = false).
    { intros HR. rewrite (has_spec key lt (multi m) Hlt k l Hs). pose proof (lower_upper key lt Hlt k l). assert (upper k l = length L); [|lia].
      rewrite <- Hl, HLR. apply upper_split; auto.
      - eapply Forall_impl; [exact HfL|]. cbn. intros x Hx. by rewrite (lt_asym lt Hlt _ _ Hx).
      - eapply Forall_impl; [exact HR|]. cbn. intros x Hx. by rewrite Hx. }
    destruct (three m) eqn:E3.
    + eexists c, false, None. split; [done|]. split; [done|]. split; [done|]. split; [auto|]. split; [done|]. split; [auto|lia].
    + pose proof (climb_result b c Hroot) as Hc. unfold rights in Hc. rewrite Ha in Hc. exists c, false. destruct (internal_last c) as [c'|].
      * destruct Hc as [Hi HR]. rewrite Hlefts in Hi. destruct R as [|v R]; [done|].
        assert (Hv : l !! length L = Some v). { rewrite <- Hl, HLR. by rewrite lookup_app_r, Nat.sub_diag by lia. }
        rewrite (it_value (b_root b) (length L) c' v Hi) by (by rewrite Hl). cbn [rbind].
        pose proof (upper_lookup key lt (multi m) Hlt k l _ v Hs Hv) as HU.
        eexists. split; [done|]. split; [done|]. split; [done|]. destruct (lt k (key v)) eqn:Ev.
        -- split; [rewrite (has_spec key lt (multi m) Hlt k l Hs); lia|]. split; [done|]. split; [auto|lia].
        -- split; [rewrite (has_spec key lt (multi m) Hlt k l Hs); lia|]. exists (length L), v. split; [done|]. split; [done|]. unfold equiv. rewrite Ev.
           apply Forall_cons in HfR as [HfR _]. rewrite HfR. split; [done|]. intros _. lia.
      * rewrite Hc in Hnone. exists None. split; [done|]. split; [done|]. split; [done|]. split; [auto|]. split; [done|]. split; [auto|lia].
Qed.
Theorem internal_find_spec b l k : repr b l -> exists o, internal_find key lt m b k = Ok o /\
  match o with Some c => has k l = true /\ hit b l k c | None => has k l = false end.
Proof.
  intros Hb. destruct (probe_spec b l k Hb) as (c & e & o & E & Hp & _ & Ho). unfold internal_find. rewrite E. cbn [rbind]. unfold probe in Hp. rewrite Hp.
  eexists; split; [done|]. destruct o; tauto.
Qed.
Theorem find_spec b l k : repr b l -> exists c, find key lt m b k = Ok c /\
  if has k l then hit b l k c else it (b_root b) (length l) c.
Proof.
  intros Hb. unfold find. destruct (internal_find_spec b l k Hb) as (o & -> & Ho). cbn. destruct o as [c|]; cbn.
  - destruct Ho as [-> ?]. eauto.
  - rewrite Ho. destruct Hb as (Hs & <- & _). by apply (end_spec kN).
Qed.
Theorem count_unique_spec b l k : repr b l -> count_unique key lt m b k = Ok (if has k l then 1 else 0).
Proof. intros Hb. unfold count_unique. destruct (internal_find_spec b l k Hb) as (o & -> & Ho). cbn. destruct o; [by destruct Ho as [-> _]|by rewrite Ho]. Qed.
Theorem count_multi_spec b l k : repr b l -> count_multi key lt m b k = Ok (upper k l - lower k l).
Proof.
  intros Hb. unfold count_multi. destruct (lower_bound_spec b l k Hb) as (c & -> & Hc). destruct (upper_bound_spec b l k Hb) as (d & -> & Hd). cbn.
  apply (distance_spec kN HkN b); auto.
  - apply Hb.
  - by apply lower_upper.
  - rewrite (repr_size b l Hb). pose proof (upper_le key lt k l). lia.
Qed.

(** ** insertion *)
Lemma emplace_it b l i c v : repr b l -> it (b_root b) i c -> l <> [] -> lower (key v) l <= i <= upper (key v) l -> (multi m = false -> has (key v) l = false) ->
  exists b' c', internal_emplace kN b c v = Ok (b', c') /\ repr b' (insert_at i v l) /\ it (b_root b') i c'.
Proof.
  intros Hb (Hr & Hn & Hi) Hne Hlu Hu. destruct (emplace_spec key kN HkN b c v) as (b' & c' & E & Hs & He & Hi'); auto.
  { apply Hb. } { right. split; [done|]. by eapply repr_nonempty_root. }
  exists b', c'. split; [done|]. rewrite Hi in *. split; [|done]. pose proof Hb as (_ & Hl & Hsr). rewrite Hl in He. split; [done|]. split; [done|]. by apply sorted_insert.
Qed.
Lemma emplace_fresh v : exists b' c', internal_emplace kN fresh (mkCur [mkFrame both [] []] Nil) v = Ok (b', c') /\ repr b' [v] /\ it (b_root b') 0 c'.
Proof.
  destruct (emplace_leaf key kN HkN fresh (mkFrame both [] []) [] v (fresh_leaf_ok kN HkN) eq_refl) as (b' & c' & E & Hs & He & Hi).
  exists b', c'. split; [done|]. cbn in He, Hi. split; [|done]. split; [done|]. split; [done|]. repeat constructor.
Qed.
Lemma fresh_root b : with_root b = if empty b then fresh else b.
Proof. done. Qed.
(* what inserting into a set does *)
Definition set_insert v l : list V := if has (key v) l then l else insert_at (lower (key v) l) v l.
Theorem insert_unique_spec b l v : multi m = false -> repr b l -> exists b' c', insert_unique key lt kN m b v = Ok (b', c', negb (has (key v) l)) /\
  repr b' (set_insert v l) /\ it (b_root b') (lower (key v) l) c' /\ (has (key v) l = true -> b' = b).
Proof.
  intros Hmu Hb. unfold insert_unique. rewrite fresh_root, (repr_empty b l Hb). destruct l as [|x l].
  - cbn [length Nat.eqb]. unfold internal_locate. change (height (b_root fresh)) with 1. cbn [descend b_root fresh].
    pose proof (node_lower_spec lt Hlt m (key v) [] (SSorted_nil _)) as Hn. cbn [map]. destruct (node_lower lt m (key v) []) as [i e]. destruct Hn as ((Hi & _) & He).
    cbn in Hi. assert (i = 0) as -> by lia. assert (three m && e = false) as Hte. { destruct (three m); [|done]. destruct He as [_ He]. destruct e; [|done]. specialize (He eq_refl). cbn in He. lia. }
    cbn [child_at walk rbind]. rewrite Hte. cbn [rbind].
    destruct (emplace_fresh v) as (b' & c' & E & Hr & Hi'). exists b', c'. split; [|split; [done|split; [done|done]]].
    destruct (three m); cbn [rbind internal_last c_path c_sub climb f_r]; rewrite E; done.
  - cbn [length Nat.eqb]. destruct (probe_spec b (x :: l) (key v) Hb) as (c & e & o & -> & Hp & Hroot & Ho). cbn [rbind]. unfold probe in Hp. rewrite Hp. cbn [rbind].
    unfold set_insert. destruct o as [c'|].
    + destruct Ho as [Hh (i & w & Hi & Hw & _ & Hlow)]. rewrite Hh. exists b, c'. split; [done|]. split; [done|]. split; [|done].
      rewrite <- Hlow; [done|]. rewrite Hmu. apply andb_false_r.
    + destruct Ho as (Hh & Hsub & Hpne & Hlen). rewrite Hh. assert (Hne : b_root b <> Nil) by (by eapply repr_nonempty_root).
      destruct (emplace_spec key kN HkN b c v) as (b' & c' & -> & Hs & He & Hi'); auto; [apply Hb|]. cbn [rbind].
      exists b', c'. split; [done|]. rewrite Hlen in *. split; [|split; done]. pose proof Hb as (_ & Hl & Hsr). rewrite Hl in He. split; [done|]. split; [done|].
      apply sorted_insert; auto. pose proof (lower_upper key lt Hlt (key v) (x :: l)). lia.
Qed.
Lemma end_it b l : repr b l -> exists c, end_ b = Ok c /\ it (b_root b) (length l) c.
Proof. intros (Hb & <- & _). by apply (end_spec kN). Qed.
Lemma begin_it b l : repr b l -> exists c, begin_ b = Ok c /\ it (b_root b) 0 c.
Proof. intros (Hb & <- & _). by apply (begin_spec kN). Qed.
Lemma value_it b l i c : repr b l -> it (b_root b) i c -> i < length l -> exists v, l !! i = Some v /\ value c = Ok v.
Proof. intros (Hb & Hl & _) Hi Hlt'. destruct (lookup_lt_is_Some_2 l i Hlt') as [v Hv]. exists v. split; [done|]. apply (it_value (b_root b) i); auto. by rewrite Hl. Qed.
Lemma it_bound b l i c : repr b l -> it (b_root b) i c -> i <= length l.
Proof. intros (Hb & <- & _) Hi. by eapply it_le. Qed.
Lemma next_r b l i c : repr b l -> it (b_root b) i c -> i < length l -> exists c', next c = Ok c' /\ it (b_root b) (S i) c'.
Proof. intros (Hb & <- & _) Hi Hlt'. by apply (next_it kN). Qed.
Lemma prev_r b l i c : repr b l -> it (b_root b) (S i) c -> exists c', prev c = Ok c' /\ it (b_root b) i c' /\ next c' = Ok c.
Proof. intros (Hb & _ & _) Hi. by apply (prev_it kN b i). Qed.
Lemma same_r b l i j c d : repr b l -> it (b_root b) i c -> it (b_root b) j d -> same c d = (i =? j).
Proof. intros (Hb & _). by apply (same_it kN). Qed.
Theorem insert_hint_unique_spec b l i c v : multi m = false -> repr b l -> it (b_root b) i c -> exists b' c', insert_hint_unique key lt kN m b c v = Ok (b', c', negb (has (key v) l)) /\
  repr b' (set_insert v l) /\ it (b_root b') (lower (key v) l) c' /\ (has (key v) l = true -> b' = b).
Proof.
  intros Hmu Hb Hc. unfold insert_hint_unique. rewrite (repr_empty b l Hb). destruct (length l =? 0) eqn:E0; [by apply insert_unique_spec|].
  assert (Hne : l <> []) by (by intros ->). pose proof (repr_sorted b l Hb) as Hs. pose proof (it_bound b l i c Hb Hc) as Hil.
  destruct (end_it b l Hb) as (e & -> & He). cbn [rbind]. rewrite (same_r b l i (length l) c e Hb Hc He).
  pose proof (lower_upper key lt Hlt (key v) l) as Hlu. pose proof (unique_upper key lt (multi m) Hlt (key v) l Hmu Hs) as Huu. pose proof (upper_le key lt (key v) l) as Hul.
  pose proof (has_spec key lt (multi m) Hlt (key v) l Hs) as Hh.
  assert (Hbefore : exists bo, (if i =? length l then Ok true else let* w := value c in Ok (lt (key v) (key w)))%res = Ok bo /\ bo = (upper (key v) l <=? i)).
  { destruct (i =? length l) eqn:E1; [exists true; split; [done|lia]|]. destruct (value_it b l i c Hb Hc) as (w & Hw & ->); [lia|]. cbn [rbind]. eexists; split; [done|].
    rewrite (upper_lookup key lt (multi m) Hlt (key v) l i w Hs Hw). lia. }
  destruct Hbefore as (bo & -> & Hbo). cbn [rbind]. destruct bo.
  - destruct (begin_it b l Hb) as (g & -> & Hg). cbn [rbind]. rewrite (same_r b l i 0 c g Hb Hc Hg).
    assert (Hfits : exists fo, (if i =? 0 then Ok true else let* p := prev c in let* w := value p in Ok (lt (key w) (key v)))%res = Ok fo /\ fo = (i <=? lower (key v) l)).
    { destruct i as [|i]; [exists true; split; [done|lia]|]. cbn [Nat.eqb]. destruct (prev_r b l i c Hb Hc) as (p & -> & Hp & _). cbn [rbind].
      destruct (value_it b l i p Hb Hp) as (w & Hw & ->); [lia|]. cbn [rbind]. eexists; split; [done|].
      rewrite (lower_lookup key lt (multi m) Hlt (key v) l i w Hs Hw). lia. }
    destruct Hfits as (fo & -> & Hfo). cbn [rbind]. destruct fo; [|by apply insert_unique_spec].
    assert (has (key v) l = false) as Hf by (rewrite Hh; lia). unfold set_insert. rewrite Hf.
    destruct (emplace_it b l i c v Hb Hc Hne) as (b' & c' & -> & Hr & Hi'); [lia|done|]. cbn [rbind]. replace (lower (key v) l) with i by lia. exists b', c'. done.
  - destruct (value_it b l i c Hb Hc) as (w & Hw & ->); [lia|]. cbn [rbind]. rewrite (lower_lookup key lt (multi m) Hlt (key v) l i w Hs Hw).
    destruct (i <? lower (key v) l) eqn:E1.
    + destruct (next_r b l i c Hb Hc) as (c1 & -> & Hc1); [lia|]. cbn [rbind]. rewrite (same_r b l (S i) (length l) c1 e Hb Hc1 He).
      assert (Hfits : exists fo, (if S i =? length l then Ok true else let* w := value c1 in Ok (lt (key v) (key w)))%res = Ok fo /\ fo = (upper (key v) l <=? S i)).
      { destruct (S i =? length l) eqn:E2; [exists true; split; [done|lia]|]. destruct (value_it b l (S i) c1 Hb Hc1) as (w1 & Hw1 & ->); [lia|]. cbn [rbind]. eexists; split; [done|].
        rewrite (upper_lookup key lt (multi m) Hlt (key v) l (S i) w1 Hs Hw1). lia. }
      destruct Hfits as (fo & -> & Hfo). cbn [rbind]. destruct fo; [|by apply insert_unique_spec].
      assert (has (key v) l = false) as Hf by (rewrite Hh; lia). unfold set_insert. rewrite Hf.
      destruct (emplace_it b l (S i) c1 v Hb Hc1 Hne) as (b' & c' & -> & Hr & Hi'); [lia|done|]. cbn [rbind]. replace (lower (key v) l) with (S i) by lia. exists b', c'. done.
    + assert (has (key v) l = true) as Ht by (rewrite Hh; lia). unfold set_insert. rewrite Ht. exists b, c. split; [done|]. split; [done|]. split; [|done].
      replace (lower (key v) l) with i by lia. done.
Qed.
Lemma sorted_insert_multi i v l : multi m = true -> srt l -> lower (key v) l <= i <= upper (key v) l -> srt (insert_at i v l).
Proof. intros Hmu Hs Hi. apply sorted_insert; auto. by rewrite Hmu. Qed.
Theorem insert_multi_gen b l v : (multi m = false -> has (key v) l = false) -> repr b l -> exists b' c', insert_multi key lt kN m b v = Ok (b', c') /\
  repr b' (insert_at (upper (key v) l) v l) /\ it (b_root b') (upper (key v) l) c'.
Proof.
  intros Hmu Hb. unfold insert_multi. rewrite fresh_root, (repr_empty b l Hb). destruct l as [|x l].
  - cbn [length Nat.eqb]. unfold internal_upper_bound. change (height (b_root fresh)) with 1. cbn [descend b_root fresh].
    pose proof (node_upper_spec lt Hlt m (key v) [] (SSorted_nil _)) as Hn. cbn [map]. destruct (node_upper lt m (key v) []) as [i e]. destruct Hn as ((Hi & _) & ->).
    cbn in Hi. assert (i = 0) as -> by lia. cbn [child_at walk rbind andb descend]. unfold internal_last. cbn [c_path c_sub climb f_r].
    destruct (emplace_fresh v) as (b' & c' & E & Hr & Hi'). exists b', c'. split; [|split; [done|done]]. exact E.
  - cbn [length Nat.eqb]. destruct (internal_upper_spec b (x :: l) (key v) Hb) as (o & -> & Ho). cbn [rbind].
    destruct (internal_end_spec b (x :: l) o _ Hb Ho) as (c & -> & Hc). cbn [rbind]. apply emplace_it; auto. pose proof (lower_upper key lt Hlt (key v) (x :: l)). lia.
Qed.
Theorem insert_multi_spec b l v : multi m = true -> repr b l -> exists b' c', insert_multi key lt kN m b v = Ok (b', c') /\
  repr b' (insert_at (upper (key v) l) v l) /\ it (b_root b') (upper (key v) l) c'.
Proof. intros Hmu. apply insert_multi_gen. by rewrite Hmu. Qed.
(* where insert(hint, v) of a multi container puts v *)
Definition hint_pos (i lo up : nat) : nat := if (lo <=? i) && (i <=? up) then i else if S i =? lo then lo else up.
Theorem insert_hint_multi_spec b l i c v : multi m = true -> repr b l -> it (b_root b) i c ->
  let p := hint_pos i (lower (key v) l) (upper (key v) l) in
  exists b' c', insert_hint_multi key lt kN m b c v = Ok (b', c') /\ repr b' (insert_at p v l) /\ it (b_root b') p c'.
Proof.
  intros Hmu Hb Hc p. unfold insert_hint_multi. rewrite (repr_empty b l Hb). pose proof (it_bound b l i c Hb Hc) as Hil. destruct (length l =? 0) eqn:E0.
  { assert (l = []) as -> by (by destruct l). assert (i = 0) as -> by (cbn in Hil; lia). subst p. exact (insert_multi_spec b [] v Hmu Hb). }
  assert (Hne : l <> []) by (by intros ->). pose proof (repr_sorted b l Hb) as Hs.
  destruct (end_it b l Hb) as (e & -> & He). cbn [rbind]. rewrite (same_r b l i (length l) c e Hb Hc He).
  pose proof (lower_upper key lt Hlt (key v) l) as Hlu. pose proof (upper_le key lt (key v) l) as Hul.
  assert (Hbefore : exists bo, (if i =? length l then Ok true else let* w := value c in Ok (negb (lt (key w) (key v))))%res = Ok bo /\ bo = (lower (key v) l <=? i)).
  { destruct (i =? length l) eqn:E1; [exists true; split; [done|lia]|]. destruct (value_it b l i c Hb Hc) as (w & Hw & ->); [lia|]. cbn [rbind]. eexists; split; [done|].
    rewrite (lower_lookup key lt (multi m) Hlt (key v) l i w Hs Hw). lia. }
  destruct Hbefore as (bo & -> & Hbo). cbn [rbind]. destruct bo.
  - destruct (begin_it b l Hb) as (g & -> & Hg). cbn [rbind]. rewrite (same_r b l i 0 c g Hb Hc Hg).
    assert (Hfits : exists fo, (if i =? 0 then Ok true else let* p := prev c in let* w := value p in Ok (negb (lt (key v) (key w))))%res = Ok fo /\ fo = (i <=? upper (key v) l)).
    { destruct i as [|i]; [exists true; split; [done|lia]|]. cbn [Nat.eqb]. destruct (prev_r b l i c Hb Hc) as (p' & -> & Hp & _). cbn [rbind].
      destruct (value_it b l i p' Hb Hp) as (w & Hw & ->); [lia|]. cbn [rbind]. eexists; split; [done|].
      rewrite (upper_lookup key lt (multi m) Hlt (key v) l i w Hs Hw). lia. }
    destruct Hfits as (fo & -> & Hfo). cbn [rbind]. assert (Hpe : p = hint_pos i (lower (key v) l) (upper (key v) l)) by done. clearbody p. unfold hint_pos in Hpe. rewrite <- Hbo, <- Hfo in Hpe. destruct fo; cbn [andb] in Hpe; subst p.
    + apply emplace_it; auto; [lia|by rewrite Hmu].
    + replace (S i =? lower (key v) l) with false by lia. by apply insert_multi_spec.
  - destruct (next_r b l i c Hb Hc) as (c1 & -> & Hc1); [lia|]. cbn [rbind]. rewrite (same_r b l (S i) (length l) c1 e Hb Hc1 He).
    assert (Hfits : exists fo, (if S i =? length l then Ok true else let* w := value c1 in Ok (negb (lt (key w) (key v))))%res = Ok fo /\ fo = (lower (key v) l <=? S i)).
    { destruct (S i =? length l) eqn:E2; [exists true; split; [done|lia]|]. destruct (value_it b l (S i) c1 Hb Hc1) as (w1 & Hw1 & ->); [lia|]. cbn [rbind]. eexists; split; [done|].
      rewrite (lower_lookup key lt (multi m) Hlt (key v) l (S i) w1 Hs Hw1). lia. }
    destruct Hfits as (fo & -> & Hfo). cbn [rbind]. assert (Hpe : p = hint_pos i (lower (key v) l) (upper (key v) l)) by done. clearbody p. unfold hint_pos in Hpe. rewrite <- Hbo in Hpe. cbn [andb] in Hpe. destruct fo; subst p.
    + replace (S i =? lower (key v) l) with true by lia. replace (lower (key v) l) with (S i) by lia. apply emplace_it; auto; [lia|by rewrite Hmu].
    + replace (S i =? lower (key v) l) with false by lia. by apply insert_multi_spec.
Qed.
Theorem insert_iterator_unique_spec b l vs : multi m = false -> repr b l -> exists b', insert_iterator_unique key lt kN m b vs = Ok b' /\ repr b' (fold_left (fun l v => set_insert v l) vs l).
Proof.
  intros Hmu. revert b l. induction vs as [|v vs IH]; intros b l Hb; cbn; [eauto|]. destruct (end_it b l Hb) as (e & -> & He). cbn [rbind].
  destruct (insert_hint_unique_spec b l _ e v Hmu Hb He) as (b' & c' & -> & Hb' & _). cbn [rbind]. by apply IH.
Qed.
(* with end() as the hint the value goes after its equivalents *)
Theorem insert_iterator_multi_spec b l vs : multi m = true -> repr b l -> exists b', insert_iterator_multi key lt kN m b vs = Ok b' /\ repr b' (fold_left (fun l v => insert_at (upper (key v) l) v l) vs l).
Proof.
  intros Hmu. revert b l. induction vs as [|v vs IH]; intros b l Hb; cbn; [eauto|]. destruct (end_it b l Hb) as (e & -> & He). cbn [rbind].
  destruct (insert_hint_multi_spec b l _ e v Hmu Hb He) as (b' & c' & -> & Hb' & _). cbn [rbind]. apply IH.
  replace (hint_pos (length l) (lower (key v) l) (upper (key v) l)) with (upper (key v) l) in Hb'; [done|]. unfold hint_pos. pose proof (lower_le key lt (key v) l). pose proof (upper_le key lt (key v) l).
  pose proof (lower_upper key lt Hlt (key v) l).
  destruct (lower (key v) l <=? length l) eqn:E1, (length l <=? upper (key v) l) eqn:E2; cbn [andb]; try lia. destruct (S (length l) =? lower (key v) l) eqn:E3; lia.
Qed.

(** ** erasing *)
Theorem erase_it b l i c : repr b l -> it (b_root b) i c -> i < length l -> exists b' c', erase kN b c = Ok (b', c') /\ repr b' (remove_at i 1 l) /\ it (b_root b') i c'.
Proof.
  intros (Hb & Hl & Hs) Hc Hi. destruct (erase_spec key kN HkN b i c Hb Hc) as (b' & c' & E & Hb' & He & Hi'); [by rewrite Hl|].
  exists b', c'. split; [done|]. split; [|done]. split; [done|]. rewrite Hl in He. split; [done|]. by apply sorted_remove.
Qed.
Lemma remove_remove i n1 n2 l : remove_at i n2 (remove_at i n1 l) = remove_at i (n1 + n2) l.
Proof.
  unfold remove_at. destruct (decide (i <= length l)) as [Hi|Hi].
  - rewrite take_app_alt by (rewrite take_length; lia). f_equal. rewrite <- drop_drop. rewrite drop_app_alt by (rewrite take_length; lia). rewrite drop_drop. f_equal. lia.
  - rewrite !(drop_ge l) by lia. rewrite !app_nil_r, !(take_ge l) by lia. rewrite drop_ge by lia. by rewrite app_nil_r.
Qed.
Lemma erase_loop_spec b i c n fuel : shape b -> it (b_root b) i c -> i + n <= length (elems (b_root b)) -> n <= fuel ->
  exists b' c', erase_loop kN fuel b c n = Ok (b', c') /\ shape b' /\ elems (b_root b') = remove_at i n (elems (b_root b)) /\ it (b_root b') i c'.
Proof.
  revert b c n. induction fuel as [|fuel IH]; intros b c n Hb Hc Hn Hf.
  { assert (n = 0) as -> by lia. exists b, c. cbn. split; [done|]. split; [done|]. unfold remove_at. by rewrite Nat.add_0_r, take_drop. }
  destruct n as [|n]. { exists b, c. cbn. split; [done|]. split; [done|]. unfold remove_at. by rewrite Nat.add_0_r, take_drop. }
  cbn [erase_loop]. destruct (it_split _ _ _ Hc) as [HLs HRs]. destruct (lookup_lt_is_Some_2 (elems (b_root b)) i) as [v Hv]; [lia|].
  rewrite (drop_S _ v _ Hv) in HRs. destruct (c_sub c) as [|a0 k0 rest0] eqn:Es; cbn [leaf].
  - pose proof Hc as (Hr & Hnm & Hlen).
    assert (Hp : c_path c <> [] /\ 1 <= match c_path c with f :: _ => length (f_r f) | [] => 0 end).
    { unfold rights in HRs. unfold normal in Hnm. destruct (c_path c) as [|f ps] eqn:Ep; [done|]. split; [done|].
      destruct Hnm as [Hnm|[_ Hnm]]; [destruct (f_r f); cbn; [done|lia]|]. unfold rights in Hnm. rewrite Ep, HRs in Hnm. done. }
    set (te := Nat.min (S n) _). assert (1 <= te <= S n) as Hte by lia. assert (te <= match c_path c with f :: _ => length (f_r f) | [] => 0 end) as Hte' by lia. clearbody te.
    destruct (remove_leaf_spec kN HkN b i c te Hb Hc Es Hte') as (c1 & b' & c' & -> & E & Hb' & He' & Hi' & _); [apply Hp|]. cbn [rbind]. rewrite E. cbn [rbind].
    destruct (IH b' c' (S n - te)) as (b2 & c2 & E2 & Hb2 & He2 & Hi2); auto; [rewrite He'; rewrite length_remove; lia|lia|].
    exists b2, c2. split; [done|]. split; [done|]. split; [|done]. rewrite He2, He', remove_remove. f_equal. lia.
  - destruct (erase_spec key kN HkN b i c Hb Hc) as (b' & c' & -> & Hb' & He' & Hi'); [lia|]. cbn [rbind].
    destruct (IH b' c' (S n - 1)) as (b2 & c2 & E2 & Hb2 & He2 & Hi2); auto; [rewrite He'; rewrite length_remove; lia|lia|].
    exists b2, c2. split; [done|]. split; [done|]. split; [|done]. rewrite He2, He', remove_remove. f_equal. lia.
Qed.
Lemma glue_two (l1 l2 : list (node V * V)) t1 t2 r1 r2 : glue l1 t1 r1 = glue l2 t2 r2 -> length l1 <= length l2 ->
  exists X, r1 = X ++ r2 /\ length X = length l2 - length l1 /\ cat_l l1 ++ elems t1 ++ cat_r X = cat_l l2 ++ elems t2.
Proof.
  revert l2 t1 r1. induction l1 as [|[k1 v1] l1 IH]; intros l2 t1 r1 He Hle; cbn in He.
  - revert t1 r1 He. clear Hle. induction l2 as [|[k2 v2] l2 IH2]; intros t1 r1 He; cbn in He.
    + simplify_eq. exists []. cbn. by rewrite app_nil_r.
    + destruct (glue l2 t2 r2) as [t' r'] eqn:E. simplify_eq. destruct (IH2 t' r' eq_refl) as (X & -> & HX & Hcat). exists ((v2, t') :: X). split; [done|]. cbn [length] in *. split; [lia|].
      rewrite cat_l_nil in *. rewrite cat_l_cons, cat_r_cons. cbn in Hcat |- *. rewrite Hcat. by rewrite <- !app_assoc.
  - destruct l2 as [|[k2 v2] l2]; [cbn in Hle; lia|]. cbn in He. destruct (glue l1 t1 r1) as [t' r'] eqn:E1. destruct (glue l2 t2 r2) as [t'' r''] eqn:E2. simplify_eq.
    destruct (IH l2 t1 r1) as (X & -> & HX & Hcat); [by rewrite E1, E2|cbn in Hle; lia|]. exists X. split; [done|]. cbn [length]. split; [lia|].
    rewrite !cat_l_cons, <- !app_assoc. cbn. rewrite Hcat. done.
Qed.
Lemma MK_cut (X Y Z : list mark) : MK (X ++ Y ++ Z) -> X <> [] -> Z <> [] -> MK (X ++ Z).
Proof.
  intros [H1 H2] HX HZ. split.
  - rewrite !map_app in *. destruct X as [|x X]; [done|]. cbn in *. destruct H1 as [? H1]. split; [done|]. rewrite !Forall_app in *. tauto.
  - rewrite !map_app, !reverse_app in *. destruct (reverse (map m_last Z)) as [|z Z'] eqn:E.
    { apply (f_equal reverse) in E. rewrite reverse_involutive in E. by destruct Z. }
    cbn in *. destruct H2 as [? H2]. split; [done|]. rewrite !Forall_app in *. tauto.
Qed.
Lemma lmarks_not_nil h t : wf (S h) t -> lmarks t <> [].
Proof.
  revert t. induction h as [|h IH]; intros [|a k0 rest] Hw; try done.
  - cbn in Hw. destruct Hw as (_ & Hk & _). destruct k0; [|done]. by cbn.
  - pose proof Hw as Hw'. cbn in Hw. destruct Hw as (_ & Hk & _). rewrite (lmarks_wf kN h) by done. intros E. apply app_eq_nil in E as [E _]. by apply (IH k0).
Qed.
Lemma remove_same b i j c d : shape b -> it (b_root b) i c -> it (b_root b) j d -> i < j -> same_node c d = true ->
  exists c1 b' c', remove_values (position d - position c) c = Ok c1 /\ after_delete kN b (j - i) c1 = Ok (b', c') /\ shape b' /\
    elems (b_root b') = remove_at i (j - i) (elems (b_root b)) /\ it (b_root b') i c'.
Proof.
  intros Hb Hc Hd Hij Hsn. pose proof Hc as (Hrc & Hnc & Hlc). pose proof Hd as (Hrd & Hnd & Hld).
  destruct c as [[|f ps] t], d as [[|g qs] t'].
  { cbn in Hnc, Hnd. subst t t'. cbn in *. lia. }
  { cbn in Hnc. subst t. unfold root_of in *. cbn [c_path c_sub] in *. rewrite <- Hrc in Hrd. destruct (close_all_not_nil _ _ _ Hrd). }
  { cbn in Hnd. subst t'. unfold root_of in *. cbn [c_path c_sub] in *. rewrite <- Hrd in Hrc. destruct (close_all_not_nil _ _ _ Hrc). }
  unfold same_node, pos_of in Hsn. cbn [c_path map tail] in Hsn. apply bool_decide_eq_true in Hsn.
  assert (Hcl : ps = qs /\ close f t = close g t'). { apply close_all_inj; [done|]. unfold root_of in *. cbn [c_path c_sub close_all] in *. congruence. }
  destruct Hcl as [<- Hcl]. assert (Hgl : glue (f_l f) t (f_r f) = glue (f_l g) t' (f_r g)).
  { unfold close in Hcl. destruct (glue (f_l f) _ _), (glue (f_l g) _ _). congruence. }
  unfold lefts in Hlc, Hld. cbn [c_path c_sub before] in Hlc, Hld. rewrite !app_length in Hlc, Hld.
  destruct (decide (length (f_l f) <= length (f_l g))) as [Hle|Hgt].
  2: { symmetry in Hgl. apply glue_two in Hgl as (X & _ & _ & HX); [|lia]. apply (f_equal length) in HX. rewrite !app_length in HX. lia. }
  destruct (glue_two _ _ _ _ _ _ Hgl Hle) as (X & Hfr & HlX & HX). clear Hgl Hcl.
  unfold remove_values, position. cbn [c_path c_sub]. rewrite <- HlX. rewrite Hfr, app_length. replace (length X <=? length X + length (f_r g)) with true by lia.
  rewrite drop_app. set (f1 := mkFrame (f_mark f) (f_l f) (f_r g)).
  destruct (Hb) as (H & Hw & _). pose proof Hw as Hw'. rewrite <- Hrc in Hw. rewrite <- Hrd in Hw'.
  destruct (open_wf kN _ _ _ Hw) as (h & HH & Hctx & Ht). destruct (open_wf kN _ _ _ Hw') as (h' & HH' & Hctx' & Ht'). cbn [c_path c_sub] in *.
  assert (h' = h) as -> by (cbn in HH, HH'; lia).
  destruct (shape_hole kN HkN b h _ f ps t Hb Hrc eq_refl Ht Hctx) as (HM & Hc1 & Hc2).
  assert (Hgr : h <> 0 -> f_r g <> []). { intros Hh. unfold normal in Hnd. cbn [c_path c_sub] in Hnd. destruct Hnd as [?|[-> _]]; [done|]. by destruct h. }
  destruct Hctx as ((Hfl & Hfr') & Hcnt & Hps). pose proof Hfr' as Hfr2. rewrite Hfr in Hfr2. apply Forall_app in Hfr2 as [_ Hfrg].
  assert (Hel : elems (close_all (f1 :: ps) t) = remove_at i (j - i) (elems (b_root b))).
  { destruct (it_split _ _ _ Hc) as [HLs _]. destruct (it_split _ _ _ Hd) as [_ HRs]. unfold remove_at. replace (i + (j - i)) with j by lia.
    rewrite <- HLs, <- HRs, elems_root. unfold lefts, rights. cbn. by rewrite <- !app_assoc. }
  destruct (after_delete_spec kN HkN b (j - i) h f1 ps t) as (b' & c' & E & Hb' & He' & Hi').
  { assert (Hcnt1 : count f1 <= count f) by (unfold count, f1; cbn; rewrite Hfr, app_length; lia).
    split; [done|]. split; [lia|]. split; [done|]. split; [done|]. split; [|split; [|split; [done|done]]].
    - destruct h as [|h]; [done|]. specialize (Hgr ltac:(done)). unfold f1. cbn [mbefore mafter f_l f_r] in *. rewrite Hfr, mcat_r_app in HM.
      rewrite app_assoc. apply (MK_cut _ (mcat_r X)).
      + revert HM. by rewrite <- !app_assoc.
      + intros E. apply app_eq_nil in E as [_ E]. by apply (lmarks_not_nil h t).
      + destruct (f_r g) as [|[w k1] r1]; [done|]. apply Forall_cons in Hfrg as [Hk1 _]. cbn. intros E. apply app_eq_nil in E as [E _]. rewrite mcat_r_cons in E. apply app_eq_nil in E as [E _]. by apply (lmarks_not_nil h k1).
    - intros H0 H1. specialize (Hc1 H0 H1). lia. }
  { rewrite Hel, (size_shape kN b Hb). rewrite length_remove; [done|]. pose proof (it_le _ _ _ Hd). lia. }
  eexists _, b', c'. split; [done|]. split; [exact E|]. split; [done|]. split; [congruence|].
  assert (Hli : length (before (f1 :: ps) ++ elems t) = i). { unfold f1. cbn [before f_l]. rewrite !app_length. lia. } by rewrite Hli in Hi'.
Qed.
End Refine.
