(** What the searches cost, and that they do the same as those of Ops.v as long as the comparator returns. *)
From stdpp Require Import list.
From Coq Require Import Arith Lia ZifyBool ZifyNat.
From Verif.Common Require Import Res.
From Verif.BTree Require Import Tree TreeFacts Balance Search Spec SearchFacts Ops Iter OpsFacts SpecFacts Refine Refine2 Api Compare.
Local Open Scope nat_scope.
Local Open Scope res_scope.

(** [c] makes the same as [r], with at most [bound] comparisons *)
Definition after_cost {A} (cost : nat) (r : res A) (n : nat) : res (A * nat) := if n <? cost then Throw else let* a := r in Ok (a, n - cost).
Definition runs {A} (c : M A) (r : res A) (bound : nat) : Prop := exists cost, cost <= bound /\ forall n, c n = after_cost cost r n.
Lemma runs_le {A} (c : M A) r x y : runs c r x -> x <= y -> runs c r y.
Proof. intros (k & Hk & H) ?. exists k. split; [lia|done]. Qed.
Lemma runs_lift {A} (r : res A) : runs (lift r) r 0.
Proof. exists 0. split; [done|]. intros n. unfold lift, after_cost. replace (n <? 0) with false by lia. by rewrite Nat.sub_0_r. Qed.
Lemma runs_ret {A} (a : A) : runs (ret a) (Ok a) 0.
Proof. apply (runs_lift (Ok a)). Qed.
Lemma runs_ask {A} (x : A) : runs (ask (fun _ => x)) (Ok x) 1.
Proof. exists 1. split; [done|]. intros [|n]; [done|]. unfold after_cost. cbn. by rewrite Nat.sub_0_r. Qed.
Lemma runs_bind {A B} (c : M A) (k : A -> M B) r (k' : A -> res B) x y : runs c r x -> (forall a, r = Ok a -> runs (k a) (k' a) y) -> runs (bindM c k) (let* a := r in k' a) (x + y).
Proof.
  intros (n1 & H1 & Hc) Hk. destruct r as [a| | | |].
  2-5: exists n1; split; [lia|]; intros n; unfold bindM; rewrite Hc; unfold after_cost; by destruct (n <? n1).
  destruct (Hk a eq_refl) as (n2 & H2 & Hk2). exists (n1 + n2). split; [lia|]. intros n. unfold bindM. rewrite Hc. unfold after_cost. destruct (n <? n1) eqn:E.
  - by replace (n <? n1 + n2) with true by lia.
  - cbn [rbind]. rewrite Hk2. unfold after_cost. replace (n <? n1 + n2) with (n - n1 <? n2) by lia. destruct (_ <? n2); [done|]. by replace (n - n1 - n2) with (n - (n1 + n2)) by lia.
Qed.
Lemma runs_seq {A B} (c : M A) (k : A -> M B) r a r' x y z : runs c r x -> r = Ok a -> runs (k a) r' y -> x + y <= z -> runs (bindM c k) r' z.
Proof. intros Hc -> Hk Hz. eapply runs_le; [|apply Hz]. exact (runs_bind c k (Ok a) (fun _ => r') x y Hc (fun a' H => ltac:(injection H as <-; exact Hk))). Qed.

Section Nodes.
Context {K : Type} (lt : K -> K -> bool).
Lemma linear_bool_c_runs comp k (ks : list K) : runs (linear_bool_c (fun _ => comp) k ks) (Ok (linear_bool comp k ks)) (length ks).
Proof.
  induction ks as [|x ks IH]; cbn [linear_bool_c linear_bool length]; [apply runs_ret|]. eapply runs_seq; [apply runs_ask|done| |cbn; apply le_n].
  destruct (comp x k); [|eapply runs_le; [apply runs_ret|lia]]. eapply runs_seq; [apply IH|done|apply runs_ret|lia].
Qed.
Lemma linear_three_c_runs k (ks : list K) : runs (linear_three_c (fun _ => lt) k ks) (Ok (linear_three lt k ks)) (length ks).
Proof.
  induction ks as [|x ks IH]; cbn [linear_three_c linear_three length]; [apply runs_ret|]. eapply runs_seq; [apply runs_ask|done| |cbn; apply le_n].
  destruct (cmp3 lt x k); try (eapply runs_le; [apply runs_ret|lia]). destruct (linear_three lt k ks) as [i e] eqn:E. eapply runs_seq; [apply IH|done|apply runs_ret|lia].
Qed.
(* the length in binary *)
Definition bits (n : nat) : nat := match n with O => 0 | S _ => S (Nat.log2 n) end.
Lemma bits_mono a b : a <= b -> bits a <= bits b.
Proof. intros H. unfold bits. destruct a, b; try lia. pose proof (Nat.log2_le_mono (S a) (S b) H). lia. Qed.
Lemma bits_half n : 1 <= n -> S (bits (n / 2)) <= bits n.
Proof.
  intros H. destruct (n / 2) as [|h] eqn:E; [destruct n; cbn; lia|]. unfold bits at 1. assert (2 <= n) by (destruct n as [|[|n]]; [lia|done|lia]).
  assert (Nat.log2 (2 * S h) <= Nat.log2 n) as Hl by (apply Nat.log2_le_mono; pose proof (Nat.mul_div_le n 2); lia). rewrite Nat.log2_double in Hl by lia.
  unfold bits. destruct n; lia.
Qed.
Lemma halves s e : s < e -> s <= (s + e) / 2 < e /\ (s + e) / 2 - s <= (e - s) / 2 /\ e - ((s + e) / 2 + 1) <= (e - s) / 2.
Proof.
  intros H. pose proof (Nat.div_mod (s + e) 2 ltac:(lia)). pose proof (Nat.mod_upper_bound (s + e) 2 ltac:(lia)).
  pose proof (Nat.div_mod (e - s) 2 ltac:(lia)). pose proof (Nat.mod_upper_bound (e - s) 2 ltac:(lia)). lia.
Qed.
Lemma binary_bool_c_runs comp k (ks : list K) fuel : forall s e, s <= e -> e <= length ks -> runs (binary_bool_c (fun _ => comp) k ks fuel s e) (Ok (binary_bool comp k ks fuel s e)) (bits (e - s)).
Proof.
  induction fuel as [|fuel IH]; intros s e Hse Hel; cbn [binary_bool_c binary_bool]; [eapply runs_le; [apply runs_ret|lia]|].
  destruct (s =? e) eqn:E; [eapply runs_le; [apply runs_ret|lia]|]. cbv zeta. destruct (halves s e) as (Hm & Hl & Hr); [lia|]. pose proof (bits_half (e - s) ltac:(lia)) as Hb.
  destruct (lookup_lt_is_Some_2 ks ((s + e) / 2)) as [x ->]; [lia|]. eapply runs_seq; [apply runs_ask|done| |].
  - instantiate (1 := bits ((e - s) / 2)). destruct (comp x k); (eapply runs_le; [apply IH; lia|by apply bits_mono]).
  - lia.
Qed.
Lemma binary_three_c_runs mu k (ks : list K) fuel : forall s e ex, s <= e -> e <= length ks -> runs (binary_three_c (fun _ => lt) mu k ks fuel s e ex) (Ok (binary_three lt mu k ks fuel s e ex)) (bits (e - s)).
Proof.
  induction fuel as [|fuel IH]; intros s e ex Hse Hel; cbn [binary_three_c binary_three]; [eapply runs_le; [apply runs_ret|lia]|].
  destruct (s =? e) eqn:E; [eapply runs_le; [apply runs_ret|lia]|]. cbv zeta. destruct (halves s e) as (Hm & Hl & Hr); [lia|]. pose proof (bits_half (e - s) ltac:(lia)) as Hb.
  destruct (lookup_lt_is_Some_2 ks ((s + e) / 2)) as [x ->]; [lia|]. eapply runs_seq; [apply runs_ask|done| |].
  - instantiate (1 := bits ((e - s) / 2)). destruct (cmp3 lt x k); [destruct mu|..]; try (eapply runs_le; [apply IH; lia|by apply bits_mono]). eapply runs_le; [apply runs_ret|lia].
  - lia.
Qed.
Context (m : mode).
(** comparisons in a node of n values *)
Definition in_node (n : nat) : nat := if linear m then n else bits n.
Lemma in_node_mono a b : a <= b -> in_node a <= in_node b.
Proof. unfold in_node. destruct (linear m); [done|apply bits_mono]. Qed.
Lemma node_lower_c_runs k (ks : list K) : runs (node_lower_c (fun _ => lt) m k ks) (Ok (node_lower lt m k ks)) (in_node (length ks)).
Proof.
  unfold node_lower_c, node_lower, in_node. destruct (three m), (linear m).
  - apply linear_three_c_runs.
  - eapply runs_le; [apply binary_three_c_runs; lia|]. by rewrite Nat.sub_0_r.
  - eapply runs_seq; [apply linear_bool_c_runs|done|apply runs_ret|lia].
  - eapply runs_seq; [apply binary_bool_c_runs; lia|done|apply runs_ret|]. rewrite Nat.sub_0_r. lia.
Qed.
Lemma node_upper_c_runs k (ks : list K) : runs (node_upper_c (fun _ => lt) m k ks) (Ok (node_upper lt m k ks)) (in_node (length ks)).
Proof.
  unfold node_upper_c, node_upper, in_node. destruct (linear m).
  - eapply runs_seq; [apply linear_bool_c_runs|done|apply runs_ret|lia].
  - eapply runs_seq; [apply binary_bool_c_runs; lia|done|apply runs_ret|]. rewrite Nat.sub_0_r. lia.
Qed.
End Nodes.

Lemma unless_runs {A} (x : bool) (a : A) (c : M A) r : runs c r 1 -> runs (if x then ret a else c) (if x then Ok a else r) (if x then 0 else 1).
Proof. destruct x; [intros _; apply runs_ret|done]. Qed.
Lemma if_runs {A} (x : bool) (c d : M A) r s y : (x = true -> runs c r y) -> (x = false -> runs d s y) -> runs (if x then c else d) (if x then r else s) y.
Proof. destruct x; auto. Qed.
Lemma some_bits {A} (x : bool) (c : M A) r : runs c r (if x then 0 else 1) -> runs c r 1.
Proof. intros H. eapply runs_le; [apply H|]. by destruct x; lia. Qed.

Section Facts.
Context {V K : Type} (key : V -> K) (lt : K -> K -> bool) (kN : nat) (m : mode).
Context (Hlt : swo lt) (HkN : 3 <= kN).
Implicit Types (b : btree V) (t : node V) (f : frame V) (ps : list (frame V)) (v : V) (c d : cursor V) (l : list V).
Notation wf := (wf kN). Notation shape := (shape kN).
Notation repr := (repr key lt kN m).
Lemma walk_wf h i : forall k0 rest lf t r, walk i k0 rest = Some (lf, t, r) -> wf h k0 -> Forall (fun x : V * node V => wf h (snd x)) rest -> wf h t.
Proof.
  induction i as [|i IH]; intros k0 rest lf t r H Hk Hr; cbn in H; [by destruct rest; simplify_eq|].
  destruct rest as [|[v k1] rest]; [done|]. destruct (walk i k1 rest) as [[[? ?] ?]|] eqn:E; [|done]. simplify_eq. apply Forall_cons in Hr as [? ?]. eapply IH; eauto.
Qed.
Lemma descend_c_runs (stop : bool) pick_c pick h t ps : (forall ks, runs (pick_c ks) (Ok (pick ks : nat * bool)) (in_node m (length ks))) -> wf h t ->
  runs (descend_c key h stop pick_c t ps) (descend key h stop pick t ps) (h * in_node m kN).
Proof.
  intros Hp. revert t ps. induction h as [|h IH]; intros [|a k0 rest] ps Hw; cbn [descend_c descend]; try done; [apply runs_ret|].
  destruct (pick (map (fun x => key (fst x)) rest)) as [i e] eqn:E. eapply runs_seq; [apply Hp|by rewrite E| |].
  - eapply (runs_bind (lift (child_at i (Node a k0 rest)))); [apply runs_lift|]. intros [f t'] Ht.
    assert (wf h t') as Hw'. { cbn in Ht. destruct (walk i k0 rest) as [[[? ?] ?]|] eqn:E2; [|done]. simplify_eq. destruct Hw as (_ & Hk & Hr). eapply walk_wf; eauto. }
    cbn beta iota. destruct (stop && e); [eapply runs_le; [apply runs_ret|apply Nat.le_0_l]|]. apply IH; done.
  - destruct Hw as ((_ & Hc) & _). rewrite map_length. pose proof (in_node_mono m _ _ Hc). cbn [Nat.mul]. lia.
Qed.
(** comparisons of one descent *)
Definition way b : nat := height (b_root b) * in_node m kN.
Lemma way_bound b : shape b -> way b <= Nat.log2 (S (b_size b)) * in_node m kN.
Proof.
  intros Hs. destruct (height_spec key kN HkN b Hs) as (h & _ & Hh & Hw). unfold way. rewrite (wf_height kN _ _ Hw), (size_shape kN b Hs). apply Nat.mul_le_mono_r.
  apply Nat.log2_le_mono in Hh. by rewrite Nat.log2_pow2 in Hh by lia.
Qed.
Lemma whole_descend b stop pick_c pick : shape b -> (forall ks, runs (pick_c ks) (Ok (pick ks : nat * bool)) (in_node m (length ks))) ->
  runs (descend_c key (height (b_root b)) stop pick_c (b_root b) []) (descend key (height (b_root b)) stop pick (b_root b) []) (way b).
Proof. intros (h & Hw & _) Hp. unfold way. rewrite (wf_height kN _ _ Hw). by apply descend_c_runs. Qed.
Lemma internal_locate_c_runs b k : shape b -> runs (internal_locate_c key (fun _ => lt) m b k) (internal_locate key lt m b k) (way b).
Proof. intros Hs. apply whole_descend; [done|]. intros. apply node_lower_c_runs. Qed.
Lemma internal_lower_c_runs b k : shape b -> runs (internal_lower_bound_c key (fun _ => lt) m b k) (internal_lower_bound key lt m b k) (way b).
Proof.
  intros Hs. eapply runs_le; [eapply runs_bind|]. { apply whole_descend; [done|]. intros. apply node_lower_c_runs. } { intros [c e] _. apply runs_ret. } lia.
Qed.
Lemma internal_upper_c_runs b k : shape b -> runs (internal_upper_bound_c key (fun _ => lt) m b k) (internal_upper_bound key lt m b k) (way b).
Proof.
  intros Hs. eapply runs_le; [eapply runs_bind|]. { apply whole_descend; [done|]. intros. apply node_upper_c_runs. } { intros [c e] _. apply runs_ret. } lia.
Qed.
Lemma check_c_runs c e k : runs (check_c key (fun _ => lt) m c e k) (probe key lt m c e k) 1.
Proof.
  unfold check_c, probe. destruct (three m); [eapply runs_le; [apply runs_ret|lia]|]. destruct (internal_last c) as [c'|]; [|eapply runs_le; [apply runs_ret|lia]].
  eapply runs_le; [eapply runs_bind; [apply runs_lift|]|]. { intros v _. instantiate (1 := 1). eapply runs_seq; [apply runs_ask|done|apply runs_ret|lia]. } lia.
Qed.
Lemma internal_find_c_runs b k : shape b -> runs (internal_find_c key (fun _ => lt) m b k) (internal_find key lt m b k) (way b + 1).
Proof. intros Hs. apply runs_bind; [by apply internal_locate_c_runs|]. intros [c e] _. apply check_c_runs. Qed.
Lemma lower_bound_c_runs b k : shape b -> runs (lower_bound_c key (fun _ => lt) m b k) (lower_bound key lt m b k) (way b).
Proof. intros Hs. eapply runs_le; [apply runs_bind; [by apply internal_lower_c_runs|intros; apply runs_lift]|lia]. Qed.
Lemma upper_bound_c_runs b k : shape b -> runs (upper_bound_c key (fun _ => lt) m b k) (upper_bound key lt m b k) (way b).
Proof. intros Hs. eapply runs_le; [apply runs_bind; [by apply internal_upper_c_runs|intros; apply runs_lift]|lia]. Qed.
Lemma find_c_runs b k : shape b -> runs (find_c key (fun _ => lt) m b k) (find key lt m b k) (way b + 1).
Proof. intros Hs. eapply runs_le; [apply runs_bind; [by apply internal_find_c_runs|intros; apply runs_lift]|lia]. Qed.
Lemma count_unique_c_runs b k : shape b -> runs (count_unique_c key (fun _ => lt) m b k) (count_unique key lt m b k) (way b + 1).
Proof. intros Hs. eapply runs_le; [apply runs_bind; [by apply internal_find_c_runs|intros; apply runs_ret]|lia]. Qed.
Lemma count_multi_c_runs b k : shape b -> runs (count_multi_c key (fun _ => lt) m b k) (count_multi key lt m b k) (2 * way b).
Proof.
  intros Hs. eapply runs_le; [apply runs_bind; [by apply lower_bound_c_runs|intros c _; apply runs_bind; [by apply upper_bound_c_runs|intros; apply runs_lift]]|lia].
Qed.
Lemma erase_unique_c_runs b k : shape b -> runs (erase_unique_c key (fun _ => lt) kN m b k) (erase_unique key lt kN m b k) (way b + 1).
Proof. intros Hs. eapply runs_le; [apply runs_bind; [by apply internal_find_c_runs|intros [c|] _; [apply runs_lift|apply runs_ret]]|lia]. Qed.
Lemma erase_multi_c_runs b k : shape b -> runs (erase_multi_c key (fun _ => lt) kN m b k) (erase_multi key lt kN m b k) (2 * way b).
Proof.
  intros Hs. eapply runs_le; [apply (runs_bind _ _ _ _ (way b) (way b)); [by apply internal_lower_c_runs|]|lia]. intros [c|] _; [|eapply runs_le; [apply runs_ret|lia]].
  eapply runs_le; [apply runs_bind; [by apply upper_bound_c_runs|intros; apply runs_lift]|lia].
Qed.

(** ** insertion: the first value of a container is not compared *)
Lemma with_root_full b : empty b = false -> with_root b = b.
Proof. unfold with_root. by intros ->. Qed.
Lemma fresh_locate k : runs (internal_locate_c key (fun _ => lt) m fresh k) (Ok (mkCur [mkFrame both [] []] Nil : cursor V, false)) 0.
Proof. exists 0. split; [done|]. intros n. unfold internal_locate_c, node_lower_c, after_cost. cbn -[Nat.ltb Nat.sub]. rewrite Nat.sub_0_r. by destruct (three m), (linear m), (multi m). Qed.
Lemma fresh_upper k : runs (internal_upper_bound_c key (fun _ => lt) m fresh k) (Ok (None : option (cursor V))) 0.
Proof. exists 0. split; [done|]. intros n. unfold internal_upper_bound_c, node_upper_c, after_cost. cbn -[Nat.ltb Nat.sub]. rewrite Nat.sub_0_r. by destruct (linear m). Qed.
Lemma fresh_check k : runs (check_c key (fun _ => lt) m (mkCur [mkFrame both [] []] Nil) false k) (Ok (None : option (cursor V))) 0.
Proof. unfold check_c. cbn. destruct (three m); apply runs_ret. Qed.
Lemma insert_unique_c_runs b v : shape b -> runs (insert_unique_c key (fun _ => lt) kN m b v) (insert_unique key lt kN m b v) (if empty b then 0 else way b + 1).
Proof.
  intros Hs. unfold insert_unique_c, insert_unique. cbv zeta. rewrite (fresh_root b). destruct (empty b) eqn:E.
  - assert (internal_locate key lt m fresh (key v) = Ok (mkCur [mkFrame both [] []] Nil : cursor V, false)) as ->.
    { unfold internal_locate, node_lower. cbn. by destruct (three m), (linear m), (multi m). }
    eapply (runs_seq _ _ _ _ _ 0 0 0); [apply fresh_locate|done| |done]. cbn [rbind]. eapply (runs_seq _ _ _ _ _ 0 0 0); [apply fresh_check|done| |done].
    change (if three m then _ else _) with (probe key lt m (mkCur [mkFrame both [] []] Nil) false (key v)).
    assert (probe key lt m (mkCur [mkFrame both [] []] Nil : cursor V) false (key v) = Ok None) as -> by (unfold probe; cbn; by destruct (three m)). cbn [rbind].
    apply (runs_bind _ _ _ _ 0 0); [apply runs_lift|]. intros [b' c'] _. apply runs_ret.
  - apply runs_bind; [by apply internal_locate_c_runs|]. intros [c e] _. eapply runs_le; [apply (runs_bind _ _ _ _ 1 0); [apply check_c_runs|]|lia].
    intros [c'|] _; [apply runs_ret|]. apply (runs_bind _ _ _ _ 0 0); [apply runs_lift|]. intros [b' c'] _. apply runs_ret.
Qed.
Lemma insert_multi_c_runs b v : shape b -> runs (insert_multi_c key (fun _ => lt) kN m b v) (insert_multi key lt kN m b v) (if empty b then 0 else way b).
Proof.
  intros Hs. unfold insert_multi_c, insert_multi. cbv zeta. rewrite (fresh_root b).
  assert (forall o, runs (let! c := lift (internal_end (if empty b then fresh else b) o) in lift (internal_emplace kN (if empty b then fresh else b) c v))
    (let* c := internal_end (if empty b then fresh else b) o in internal_emplace kN (if empty b then fresh else b) c v) 0) as Hrest.
  { intros o. apply (runs_bind _ _ _ _ 0 0); [apply runs_lift|]. intros c _. apply runs_lift. }
  destruct (empty b) eqn:E.
  - assert (internal_upper_bound key lt m fresh (key v) = Ok (None : option (cursor V))) as ->.
    { unfold internal_upper_bound, node_upper. cbn. by destruct (linear m). }
    eapply (runs_seq _ _ _ _ _ 0 0 0); [apply fresh_upper|done|apply Hrest|done].
  - eapply runs_le; [apply runs_bind; [by apply internal_upper_c_runs|intros o _; apply Hrest]|lia].
Qed.
(* a question about the value at an iterator *)
Lemma at_c_runs c (p : V -> bool) : runs (let! w := lift (value c) in ask (fun _ => p w)) (let* w := value c in Ok (p w)) 1.
Proof. apply (runs_bind _ _ _ _ 0 1); [apply runs_lift|]. intros w _. apply runs_ask. Qed.
Lemma before_c_runs c (p : V -> bool) : runs (let! d := lift (prev c) in let! w := lift (value d) in ask (fun _ => p w)) (let* d := prev c in let* w := value d in Ok (p w)) 1.
Proof. apply (runs_bind _ _ _ _ 0 1); [apply runs_lift|]. intros d _. apply at_c_runs. Qed.
Lemma emplace_c_runs b c v : runs (let! (b', c') := lift (internal_emplace kN b c v) in ret (b', c', true)) (let* (b', c') := internal_emplace kN b c v in Ok (b', c', true)) 0.
Proof. apply (runs_bind _ _ _ _ 0 0); [apply runs_lift|]. intros [b' c'] _. apply runs_ret. Qed.
Lemma insert_hint_unique_c_runs b c v : shape b -> runs (insert_hint_unique_c key (fun _ => lt) kN m b c v) (insert_hint_unique key lt kN m b c v) (if empty b then 0 else way b + 4).
Proof.
  intros Hs. unfold insert_hint_unique_c, insert_hint_unique. cbv zeta. destruct (empty b) eqn:Em.
  { eapply runs_le; [by apply insert_unique_c_runs|]. by rewrite Em. }
  assert (Hins : runs (insert_unique_c key (fun _ => lt) kN m b v) (insert_unique key lt kN m b v) (way b + 1)) by (eapply runs_le; [by apply insert_unique_c_runs|by rewrite Em]).
  eapply runs_le; [apply (runs_bind _ _ _ _ 0 (1 + (1 + (1 + (way b + 1))))); [apply runs_lift|]|lia]. intros e _.
  apply runs_bind; [eapply some_bits, unless_runs, at_c_runs|]. intros x _. apply if_runs; intros _.
  - eapply runs_le; [apply (runs_bind _ _ _ _ 0 (1 + (way b + 1))); [apply runs_lift|]|lia]. intros g _. apply runs_bind; [eapply some_bits, unless_runs, before_c_runs|].
    intros y _. apply if_runs; intros _; [eapply runs_le; [apply emplace_c_runs|lia]|done].
  - eapply runs_le; [apply (runs_bind _ _ _ _ 0 (1 + (1 + (way b + 1)))); [apply runs_lift|]|lia]. intros w _. eapply runs_seq; [apply runs_ask|done| |apply le_n].
    apply if_runs; intros _; [|eapply runs_le; [apply runs_ret|lia]].
    eapply runs_le; [apply (runs_bind _ _ _ _ 0 (1 + (way b + 1))); [apply runs_lift|]|lia]. intros c1 _. apply runs_bind; [eapply some_bits, unless_runs, at_c_runs|].
    intros y _. apply if_runs; intros _; [eapply runs_le; [apply emplace_c_runs|lia]|done].
Qed.
Lemma insert_hint_multi_c_runs b c v : shape b -> runs (insert_hint_multi_c key (fun _ => lt) kN m b c v) (insert_hint_multi key lt kN m b c v) (if empty b then 0 else way b + 2).
Proof.
  intros Hs. unfold insert_hint_multi_c, insert_hint_multi. cbv zeta. destruct (empty b) eqn:Em.
  { eapply runs_le; [by apply insert_multi_c_runs|]. by rewrite Em. }
  assert (Hins : runs (insert_multi_c key (fun _ => lt) kN m b v) (insert_multi key lt kN m b v) (way b)) by (eapply runs_le; [by apply insert_multi_c_runs|by rewrite Em]).
  eapply runs_le; [apply (runs_bind _ _ _ _ 0 (1 + (1 + way b))); [apply runs_lift|]|lia]. intros e _.
  apply runs_bind; [eapply some_bits, unless_runs, at_c_runs|]. intros x _. apply if_runs; intros _.
  - eapply runs_le; [apply (runs_bind _ _ _ _ 0 (1 + way b)); [apply runs_lift|]|lia]. intros g _. apply runs_bind; [eapply some_bits, unless_runs, (before_c_runs _ (fun w => negb (lt (key v) (key w))))|].
    intros y _. apply if_runs; intros _; [eapply runs_le; [apply runs_lift|lia]|done].
  - eapply runs_le; [apply (runs_bind _ _ _ _ 0 (1 + way b)); [apply runs_lift|]|lia]. intros c1 _. apply runs_bind; [eapply some_bits, unless_runs, (at_c_runs _ (fun w => negb (lt (key w) (key v))))|].
    intros y _. apply if_runs; intros _; [eapply runs_le; [apply runs_lift|lia]|done].
Qed.
End Facts.
