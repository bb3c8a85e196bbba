(** C70: how often the B-tree containers call the comparator, and what is left when it throws. *)
From stdpp Require Import list.
From Coq Require Import Arith Lia ZifyBool ZifyNat Sorting.Sorted Permutation.
From Verif.Common Require Import Res.
From Verif.BTree Require Import Tree TreeFacts Balance Search Spec SearchFacts Ops Iter OpsFacts SpecFacts Refine Refine2 Api ApiSpec ApiFacts Compare CompareFacts PropsBTree.
Local Open Scope nat_scope.
Local Open Scope res_scope.

(** ** specification *)
(** the comparisons in a node with up to kN values, and on a way from the root to a leaf of a container of n values *)
Definition per_node (m : mode) (kN : nat) : nat := if linear m then kN else S (Nat.log2 kN).
Definition per_way (m : mode) (kN n : nat) : nat := Nat.log2 (S n) * per_node m kN.
(** the comparisons of a call on n values *)
Definition call_bound {V K} (m : mode) (kN n : nat) (o : op V K) : nat :=
  match o with
  | Insert _ => if n =? 0 then 0 else per_way m kN n + 1
  | InsertHint _ _ => if n =? 0 then 0 else per_way m kN n + 4
  | InsertRange vs => length vs * (per_way m kN (n + length vs) + 2)
  | EraseKey _ | Count _ => if multi m then 2 * per_way m kN n else per_way m kN n + 1
  | ExtractKey _ | Find _ | Contains _ => per_way m kN n + 1
  | LowerBound _ | UpperBound _ => per_way m kN n
  | EqualRange _ => 2 * per_way m kN n
  | _ => 0
  end.
Definition is_range {V K} (o : op V K) : bool := match o with InsertRange _ => true | _ => false end.

Lemma then_runs {A B} (c : M A) (k : A -> res B) r y : runs c r y -> runs (let! a := c in lift (k a)) (let* a := r in k a) y.
Proof. intros H. eapply runs_le; [apply runs_bind; [apply H|intros; apply runs_lift]|lia]. Qed.
Lemma first_runs {A B} (r : res A) (k : A -> M B) (k' : A -> res B) y : (forall a, r = Ok a -> runs (k a) (k' a) y) -> runs (let! a := lift r in k a) (let* a := r in k' a) y.
Proof. intros H. eapply runs_le; [apply (runs_bind _ _ _ _ 0 y); [apply runs_lift|done]|lia]. Qed.

Section Props.
Context {V K : Type} (key : V -> K) (lt : K -> K -> bool) (kN : nat) (m : mode).
Context (Hlt : swo lt) (HkN : 3 <= kN).
Implicit Types (b src : btree V) (v : V) (l : list V).
Notation repr := (repr key lt kN m).
Notation wayb := (way kN m).

Lemma in_node_per : in_node m kN = per_node m kN.
Proof. unfold in_node, per_node, bits. destruct kN; [lia|done]. Qed.
Lemma way_le b l : repr b l -> wayb b <= per_way m kN (length l).
Proof.
  intros Hr. pose proof (way_bound key kN m HkN b (proj1 Hr)) as H. unfold per_way. by rewrite <- in_node_per, <- (repr_size key lt kN m b l Hr).
Qed.
Lemma catch_runs b c r b' x n0 : runs c r n0 -> r = Ok (b', x) -> exists cost, cost <= n0 /\ forall n, catch b c n = if n <? cost then CThrow b else CRet b' x (n - cost).
Proof.
  intros (cost & Hc & H) ->. exists cost. split; [done|]. intros n. unfold catch. rewrite H. unfold after_cost. by destruct (n <? cost).
Qed.
(* the container that an insertion leaves when it throws is the one before the call *)
Lemma catch_ins_runs b l c r b' x n0 : repr b l -> runs c r (if empty b then 0 else n0) -> r = Ok (b', x) ->
  exists cost, cost <= (if length l =? 0 then 0 else n0) /\ forall n, catch (with_root b) c n = if n <? cost then CThrow b else CRet b' x (n - cost).
Proof.
  intros Hr H E. destruct (catch_runs (with_root b) c r b' x _ H E) as (cost & Hc & Hn). exists cost. rewrite <- (repr_empty key lt kN m b l Hr). split; [done|].
  intros n. rewrite Hn. destruct (empty b) eqn:Em; [|by rewrite (with_root_full b Em)]. assert (cost = 0) as -> by lia. done.
Qed.
Lemma call_runs b l o : repr b l -> pre key l o -> is_range o = false ->
  exists b' r cost, call key lt kN m b o = Ok (b', r) /\ cost <= call_bound m kN (length l) o /\
    forall n, call_c key (fun _ => lt) kN m b o n = if n <? cost then CThrow b else CRet b' r (n - cost).
Proof.
  intros Hb Hp Ho. destruct (call_spec key lt kN m Hlt HkN b l o Hb Hp) as (b' & r & l' & Hc & _). exists b', r. pose proof (way_le b l Hb) as Hw. pose proof (proj1 Hb) as Hs.
  assert (Hgo : exists cost, cost <= call_bound m kN (length l) o /\ forall n, call_c key (fun _ => lt) kN m b o n = if n <? cost then CThrow b else CRet b' r (n - cost)).
  2:{ destruct Hgo as (cost & ? & ?). eauto. }
  assert (Hcat : forall c n0, runs c (call key lt kN m b o) n0 -> n0 <= call_bound m kN (length l) o ->
    exists cost, cost <= call_bound m kN (length l) o /\ forall n, catch b c n = if n <? cost then CThrow b else CRet b' r (n - cost)).
  { intros c n0 H H0. destruct (catch_runs b c _ b' r n0 H Hc) as (cost & ? & ?). exists cost. split; [lia|done]. }
  destruct o as [v|i v|vs|k|i|i j|pred| |i|k|k|k|k|k|k|k|i| | | | | |i v|]; cbn [call_c call_bound] in *;
    try (eapply Hcat; [apply runs_lift|lia]); try discriminate Ho.
  - (* insert *)
    destruct (catch_ins_runs b l (if multi m then let! x := insert_multi_c key (fun _ => lt) kN m b v in pos_c x true
        else let! (b', c, ins) := insert_unique_c key (fun _ => lt) kN m b v in pos_c (b', c) ins) (call key lt kN m b (Insert v)) b' r (wayb b + 1) Hb) as (cost & Hco & Hn); auto.
    + cbn [call]. destruct (multi m).
      * eapply runs_le; [apply then_runs; by apply (insert_multi_c_runs key lt kN m)|]. destruct (empty b); lia.
      * eapply runs_le; [apply runs_bind; [by apply (insert_unique_c_runs key lt kN m)|intros [[b1 c1] i1] _; apply runs_lift]|]. destruct (empty b); lia.
    + exists cost. split; [|done]. destruct (length l =? 0); lia.
  - (* insert with a hint *)
    destruct (catch_ins_runs b l (let! h := lift (at_index b i) in
        if multi m then let! x := insert_hint_multi_c key (fun _ => lt) kN m b h v in pos_c x true
        else let! (b', c, _) := insert_hint_unique_c key (fun _ => lt) kN m b h v in pos_c (b', c) true) (call key lt kN m b (InsertHint i v)) b' r (wayb b + 4) Hb) as (cost & Hco & Hn); auto.
    + cbn [call]. apply first_runs. intros h _. destruct (multi m).
      * eapply runs_le; [apply then_runs; by apply (insert_hint_multi_c_runs key lt kN m)|]. destruct (empty b); lia.
      * eapply runs_le; [apply runs_bind; [by apply (insert_hint_unique_c_runs key lt kN m)|intros [[b1 c1] i1] _; apply runs_lift]|]. destruct (empty b); lia.
    + exists cost. split; [|done]. destruct (length l =? 0); lia.
  - (* erase *)
    cbn [call] in Hcat. destruct (multi m).
    + eapply Hcat; [cbn [call]; eapply runs_bind; [by apply (erase_multi_c_runs key lt kN m)|intros [b1 n1] _; apply runs_ret]|]. lia.
    + eapply Hcat; [cbn [call]; eapply runs_bind; [by apply (erase_unique_c_runs key lt kN m)|intros [b1 n1] _; apply runs_ret]|]. lia.
  - (* extract *)
    eapply Hcat; [cbn [call]; eapply runs_bind; [by apply (find_c_runs key lt kN m)|]|].
    + intros c _. apply first_runs. intros e _. apply if_runs; intros _; [apply runs_ret|apply runs_lift].
    + lia.
  - eapply Hcat; [cbn [call]; eapply then_runs; by apply (find_c_runs key lt kN m)|]. lia.
  - eapply Hcat; [cbn [call]; eapply then_runs; by apply (find_c_runs key lt kN m)|]. lia.
  - cbn [call] in Hcat. destruct (multi m).
    + eapply Hcat; [cbn [call]; eapply runs_bind; [by apply (count_multi_c_runs key lt kN m)|intros; apply runs_ret]|]. lia.
    + eapply Hcat; [cbn [call]; eapply runs_bind; [by apply (count_unique_c_runs key lt kN m)|intros; apply runs_ret]|]. lia.
  - eapply Hcat; [cbn [call]; eapply then_runs; by apply (lower_bound_c_runs key lt kN m)|]. lia.
  - eapply Hcat; [cbn [call]; eapply then_runs; by apply (upper_bound_c_runs key lt kN m)|]. lia.
  - eapply Hcat; [cbn [call]; eapply runs_bind; [by apply (lower_bound_c_runs key lt kN m)|intros; eapply then_runs; by apply (upper_bound_c_runs key lt kN m)]|]. lia.
Qed.

(** ** hints *)
(* v belongs before position i *)
Definition fits l (i : nat) v : Prop :=
  (forall j x, S j = i -> l !! j = Some x -> rel lt (multi m) (key x) (key v) = true) /\ (forall y, l !! i = Some y -> rel lt (multi m) (key v) (key y) = true).
Lemma seq_runs {A B} (c : M A) (k : A -> M B) r (k' : A -> res B) a x y : runs c r x -> r = Ok a -> runs (k a) (k' a) y -> runs (bindM c k) (let* a := r in k' a) (x + y).
Proof. intros Hc E Hk. apply runs_bind; [done|]. intros a' E'. rewrite E in E'. by injection E' as <-. Qed.
Lemma right_hint_unique b l i c v : multi m = false -> repr b l -> l <> [] -> it (b_root b) i c -> fits l i v ->
  runs (insert_hint_unique_c key (fun _ => lt) kN m b c v) (insert_hint_unique key lt kN m b c v) ((if i =? length l then 0 else 1) + 1).
Proof.
  intros Hmu Hb Hl Hc [Hf1 Hf2]. unfold insert_hint_unique_c, insert_hint_unique. cbv zeta. rewrite Hmu in *. cbn [rel] in *. rewrite (repr_empty key lt kN m b l Hb).
  destruct l as [|x0 l0] eqn:El; [done|]. rewrite <- El in *. assert (1 <= length l) by (subst; cbn; lia). replace (length l =? 0) with false by lia.
  apply first_runs. intros e He. destruct (end_it key lt kN m b l Hb) as (e' & He' & Hie). rewrite He in He'. injection He' as <-.
  rewrite (same_r key lt kN m b l _ _ c e Hb Hc Hie). pose proof (it_bound key lt kN m b l i c Hb Hc) as Hi.
  eapply seq_runs with (a := true).
  - apply unless_runs, at_c_runs.
  - destruct (i =? length l) eqn:E; [done|]. destruct (value_it key lt kN m b l i c Hb Hc) as (w & Hw & ->); [lia|]. cbn [rbind]. by rewrite Hf2.
  - apply first_runs. intros g Hg. destruct (begin_it key lt kN m b l Hb) as (g' & Hg' & Hig). rewrite Hg in Hg'. injection Hg' as <-.
    rewrite (same_r key lt kN m b l _ _ c g Hb Hc Hig). eapply runs_le; [eapply seq_runs with (a := true) (y := 0)|].
    + eapply some_bits, unless_runs, before_c_runs.
    + destruct (i =? 0) eqn:E; [done|]. destruct i as [|i]; [lia|]. destruct (prev_r key lt kN m b l i c Hb Hc) as (p & -> & Hp & _). cbn [rbind].
      destruct (value_it key lt kN m b l i p Hb Hp) as (w & Hw & ->); [lia|]. cbn [rbind]. by rewrite (Hf1 i w).
    + apply emplace_c_runs.
    + lia.
Qed.
Lemma right_hint_multi b l i c v : multi m = true -> repr b l -> l <> [] -> it (b_root b) i c -> fits l i v ->
  runs (insert_hint_multi_c key (fun _ => lt) kN m b c v) (insert_hint_multi key lt kN m b c v) ((if i =? length l then 0 else 1) + 1).
Proof.
  intros Hmu Hb Hl Hc [Hf1 Hf2]. unfold insert_hint_multi_c, insert_hint_multi. cbv zeta. rewrite Hmu in *. cbn [rel] in *. rewrite (repr_empty key lt kN m b l Hb).
  destruct l as [|x0 l0] eqn:El; [done|]. rewrite <- El in *. assert (1 <= length l) by (subst; cbn; lia). replace (length l =? 0) with false by lia.
  apply first_runs. intros e He. destruct (end_it key lt kN m b l Hb) as (e' & He' & Hie). rewrite He in He'. injection He' as <-.
  rewrite (same_r key lt kN m b l _ _ c e Hb Hc Hie). pose proof (it_bound key lt kN m b l i c Hb Hc) as Hi.
  eapply seq_runs with (a := true).
  - apply unless_runs. apply (at_c_runs _ (fun w => negb (lt (key w) (key v)))).
  - destruct (i =? length l) eqn:E; [done|]. destruct (value_it key lt kN m b l i c Hb Hc) as (w & Hw & ->); [lia|]. cbn [rbind]. by rewrite Hf2.
  - apply first_runs. intros g Hg. destruct (begin_it key lt kN m b l Hb) as (g' & Hg' & Hig). rewrite Hg in Hg'. injection Hg' as <-.
    rewrite (same_r key lt kN m b l _ _ c g Hb Hc Hig). eapply runs_le; [eapply seq_runs with (a := true) (y := 0)|].
    + eapply some_bits, unless_runs, (before_c_runs _ (fun w => negb (lt (key v) (key w)))).
    + destruct (i =? 0) eqn:E; [done|]. destruct i as [|i]; [lia|]. destruct (prev_r key lt kN m b l i c Hb Hc) as (p & -> & Hp & _). cbn [rbind].
      destruct (value_it key lt kN m b l i p Hb Hp) as (w & Hw & ->); [lia|]. cbn [rbind]. by rewrite (Hf1 i w).
    + apply runs_lift.
    + lia.
Qed.
(* at the end nothing is compared with the hint itself *)
Lemma end_hint_unique b l c v : repr b l -> end_ b = Ok c -> runs (insert_hint_unique_c key (fun _ => lt) kN m b c v) (insert_hint_unique key lt kN m b c v) (if empty b then 0 else wayb b + 2).
Proof.
  intros Hb Hc. pose proof (proj1 Hb) as Hs. unfold insert_hint_unique_c, insert_hint_unique. cbv zeta. destruct (empty b) eqn:Em.
  { eapply runs_le; [by apply (insert_unique_c_runs key lt kN m)|]. by rewrite Em. }
  apply first_runs. intros e He. assert (e = c) as -> by congruence. destruct (end_it key lt kN m b l Hb) as (e' & He' & Hie). assert (e' = c) as -> by congruence.
  rewrite (same_r key lt kN m b l _ _ c c Hb Hie Hie), Nat.eqb_refl. eapply runs_le; [eapply (seq_runs _ _ _ _ true 0 (wayb b + 2)); [apply runs_ret|done|]|lia].
  apply first_runs. intros g _. replace (wayb b + 2) with (1 + (wayb b + 1)) by lia. apply runs_bind; [eapply some_bits, unless_runs, before_c_runs|].
  intros y _. apply if_runs; intros _; [eapply runs_le; [apply emplace_c_runs|lia]|]. eapply runs_le; [by apply (insert_unique_c_runs key lt kN m)|by rewrite Em].
Qed.
Lemma end_hint_multi b l c v : repr b l -> end_ b = Ok c -> runs (insert_hint_multi_c key (fun _ => lt) kN m b c v) (insert_hint_multi key lt kN m b c v) (if empty b then 0 else wayb b + 2).
Proof.
  intros Hb Hc. pose proof (proj1 Hb) as Hs. unfold insert_hint_multi_c, insert_hint_multi. cbv zeta. destruct (empty b) eqn:Em.
  { eapply runs_le; [by apply (insert_multi_c_runs key lt kN m)|]. by rewrite Em. }
  apply first_runs. intros e He. assert (e = c) as -> by congruence. destruct (end_it key lt kN m b l Hb) as (e' & He' & Hie). assert (e' = c) as -> by congruence.
  rewrite (same_r key lt kN m b l _ _ c c Hb Hie Hie), Nat.eqb_refl. eapply runs_le; [eapply (seq_runs _ _ _ _ true 0 (wayb b + 2)); [apply runs_ret|done|]|lia].
  apply first_runs. intros g _. replace (wayb b + 2) with (1 + (wayb b + 1)) by lia. apply runs_bind; [eapply some_bits, unless_runs, (before_c_runs _ (fun w => negb (lt (key v) (key w))))|].
  intros y _. apply if_runs; intros _; [eapply runs_le; [apply runs_lift|lia]|]. eapply runs_le; [by apply (insert_multi_c_runs key lt kN m)|rewrite Em; lia].
Qed.
(** one value of a range *)
Definition one_more b v : res (btree V) :=
  let* e := end_ b in if multi m then let* (b', _) := insert_hint_multi key lt kN m b e v in Ok b' else let* (b', _, _) := insert_hint_unique key lt kN m b e v in Ok b'.
Lemma one_more_range b v vs : call key lt kN m b (InsertRange (v :: vs)) = let* b' := one_more b v in call key lt kN m b' (InsertRange vs).
Proof.
  cbn [call]. unfold one_more. destruct (multi m); cbn [insert_iterator_multi insert_iterator_unique]; destruct (end_ b) as [e| | | |]; cbn [rbind]; try done.
  - by destruct (insert_hint_multi key lt kN m b e v) as [[b1 c1]| | | |].
  - by destruct (insert_hint_unique key lt kN m b e v) as [[[b1 c1] i1]| | | |].
Qed.
Definition one_more_c b v : M (btree V) := let! e := lift (end_ b) in hint_c key (fun _ => lt) kN m b e v.
Lemma one_more_ok b l v : repr b l -> exists b', one_more b v = Ok b' /\ repr b' (if multi m then insert_at (upper key lt (key v) l) v l else set_insert key lt v l).
Proof.
  intros Hb. pose proof (one_more_range b v []) as H. cbn [call] in H. destruct (multi m) eqn:Hmu.
  - destruct (insert_iterator_multi_spec key lt kN m Hlt HkN b l [v] Hmu Hb) as (b' & E & Hb'). rewrite E in H. destruct (one_more b v) as [b1| | | |]; try done. cbn in H. injection H as ->. eauto.
  - destruct (insert_iterator_unique_spec key lt kN m Hlt HkN b l [v] Hmu Hb) as (b' & E & Hb'). rewrite E in H. destruct (one_more b v) as [b1| | | |]; try done. cbn in H. injection H as ->. eauto.
Qed.
Lemma one_more_runs b l v : repr b l -> runs (one_more_c b v) (one_more b v) (if empty b then 0 else wayb b + 2).
Proof.
  intros Hb. apply first_runs. intros e He. unfold hint_c. destruct (multi m) eqn:Hmu.
  - eapply runs_le; [apply runs_bind; [by eapply end_hint_multi|intros [b1 c1] _; apply runs_ret]|lia].
  - eapply runs_le; [apply runs_bind; [by eapply end_hint_unique|intros [[b1 c1] i1] _; apply runs_ret]|lia].
Qed.
Lemma one_more_last b l v : repr b l -> sorted key lt (multi m) (l ++ [v]) -> runs (one_more_c b v) (one_more b v) 1.
Proof.
  intros Hb Hso. destruct l as [|x0 l0] eqn:El. { eapply runs_le; [by eapply one_more_runs|]. rewrite (repr_empty key lt kN m b [] Hb). cbn. lia. }
  rewrite <- El in *. assert (l <> []) as Hne by (by subst). apply first_runs. intros e He. destruct (end_it key lt kN m b l Hb) as (e' & He' & Hie). assert (e' = e) as -> by congruence.
  assert (fits l (length l) v) as Hf.
  { split; [|intros y Hy; apply lookup_lt_Some in Hy; lia]. intros j x Hj Hx. unfold sorted in Hso. rewrite ss_app in Hso. destruct Hso as (_ & _ & Hf).
    rewrite Forall_lookup in Hf. specialize (Hf j x Hx). by rewrite Forall_singleton in Hf. }
  unfold hint_c. destruct (multi m) eqn:Hmu.
  - eapply runs_le; [apply runs_bind; [by eapply (right_hint_multi b l)|intros [b1 c1] _; apply runs_ret]|]. rewrite Nat.eqb_refl. lia.
  - eapply runs_le; [apply runs_bind; [by eapply (right_hint_unique b l)|intros [[b1 c1] i1] _; apply runs_ret]|]. rewrite Nat.eqb_refl. lia.
Qed.
Lemma range_step b l v : repr b l -> exists b' l' cost, one_more b v = Ok b' /\ repr b' l' /\ length l' <= S (length l) /\ cost <= (if length l =? 0 then 0 else per_way m kN (length l) + 2) /\
  (sorted key lt (multi m) (l ++ [v]) -> cost <= 1 /\ l' = l ++ [v]) /\
  forall vs n, insert_range_c key (fun _ => lt) kN m b (v :: vs) n = if n <? cost then CThrow b else insert_range_c key (fun _ => lt) kN m b' vs (n - cost).
Proof.
  intros Hb. destruct (one_more_ok b l v Hb) as (b' & E & Hb'). destruct (one_more_runs b l v Hb) as (cost & Hc & Hr). exists b'. eexists. exists cost. split; [done|]. split; [exact Hb'|].
  pose proof (way_le b l Hb) as Hw. rewrite (repr_empty key lt kN m b l Hb) in Hc.
  split. { destruct (multi m); [rewrite (length_insert key); [done|apply upper_le]|]. unfold set_insert. destruct (has key lt (key v) l); [lia|]. rewrite (length_insert key); [done|apply lower_le]. }
  split. { destruct (length l =? 0); lia. }
  split.
  - intros Hso. split.
    + destruct (one_more_last b l v Hb Hso) as (c2 & H2 & Hr2). enough (c2 = cost) by lia. destruct (Nat.lt_trichotomy c2 cost) as [Hx|[Hx|Hx]]; [|done|]; exfalso.
      * specialize (Hr c2). rewrite Hr2, E in Hr. unfold after_cost in Hr. rewrite Nat.ltb_irrefl in Hr. replace (c2 <? cost) with true in Hr by lia. done.
      * specialize (Hr cost). rewrite Hr2, E in Hr. unfold after_cost in Hr. rewrite Nat.ltb_irrefl in Hr. replace (cost <? c2) with true in Hr by lia. done.
    + destruct (sorted_snoc key lt kN m Hlt HkN v l []) as [Hu Hh]; [done|]. destruct (multi m) eqn:Hmu; [by rewrite Hu, (insert_end key kN HkN)|]. unfold set_insert. rewrite (Hh eq_refl).
      pose proof (has_spec key lt false Hlt (key v) l) as Hs. rewrite (Hh eq_refl), Hu in Hs. unfold sorted in Hso. rewrite ss_app in Hso. specialize (Hs (proj1 Hso)). pose proof (lower_le key lt (key v) l).
      replace (lower key lt (key v) l) with (length l) by lia. apply (insert_end key kN HkN).
  - intros vs n. cbn [insert_range_c]. change (let! e := lift (end_ b) in hint_c key (fun _ => lt) kN m b e v) with (one_more_c b v). rewrite Hr, E. unfold after_cost. destruct (n <? cost) eqn:En; [|done].
    destruct (empty b) eqn:Em; [|by rewrite (with_root_full b Em)]. rewrite (repr_empty key lt kN m b l Hb) in Em. rewrite Em in Hc. lia.
Qed.
Lemma per_way_mono a c : a <= c -> per_way m kN a <= per_way m kN c.
Proof. intros H. unfold per_way. apply Nat.mul_le_mono_r, Nat.log2_le_mono. lia. Qed.
(** a range: all of it, or a part from its front *)
Lemma range_runs vs : forall b l, repr b l -> exists b' cost, call key lt kN m b (InsertRange vs) = Ok (b', RUnit) /\ cost <= length vs * (per_way m kN (length l + length vs) + 2) /\
  (sorted key lt (multi m) (l ++ vs) -> cost <= length vs /\ repr b' (l ++ vs)) /\
  forall n, if n <? cost then exists pre suf bp, vs = pre ++ suf /\ suf <> [] /\ call key lt kN m b (InsertRange pre) = Ok (bp, RUnit) /\ call_c key (fun _ => lt) kN m b (InsertRange vs) n = CThrow bp
            else call_c key (fun _ => lt) kN m b (InsertRange vs) n = CRet b' RUnit (n - cost).
Proof.
  induction vs as [|v vs IH]; intros b l Hb.
  - exists b, 0. split; [cbn; by destruct (multi m)|]. split; [lia|]. split; [intros _; rewrite app_nil_r; auto|]. intros n. replace (n <? 0) with false by lia. cbn. by rewrite Nat.sub_0_r.
  - destruct (range_step b l v Hb) as (b1 & l1 & c1 & E1 & Hb1 & Hl1 & Hc1 & Hs1 & Hn1). destruct (IH b1 l1 Hb1) as (b2 & c2 & E2 & Hc2 & Hs2 & Hn2).
    exists b2, (c1 + c2). rewrite one_more_range, E1. cbn [rbind]. split; [done|]. split.
    { cbn [length]. pose proof (per_way_mono (length l1 + length vs) (length l + S (length vs)) ltac:(lia)). pose proof (per_way_mono (length l) (length l + S (length vs)) ltac:(lia)).
      set (p := per_way m kN (length l + S (length vs))) in *. assert (c1 <= p + 2) by (destruct (length l =? 0); lia).
      assert (c2 <= length vs * (p + 2)) by (etrans; [exact Hc2|]; apply Nat.mul_le_mono_l; lia). lia. }
    split.
    { intros Hso. replace (l ++ v :: vs) with ((l ++ [v]) ++ vs) in * by (by rewrite <- app_assoc). assert (sorted key lt (multi m) (l ++ [v])) as Hso1 by (unfold sorted in *; rewrite ss_app in Hso; apply Hso).
      destruct (Hs1 Hso1) as [? ->]. destruct (Hs2 Hso). cbn. split; [lia|done]. }
    intros n. cbn [call_c]. rewrite Hn1. destruct (n <? c1) eqn:En.
    { replace (n <? c1 + c2) with true by lia. exists [], (v :: vs), b. split; [done|]. split; [done|]. split; [|done]. cbn. by destruct (multi m). }
    specialize (Hn2 (n - c1)). cbn [call_c] in Hn2. replace (n <? c1 + c2) with (n - c1 <? c2) by lia. destruct (n - c1 <? c2) eqn:En2.
    + destruct Hn2 as (pr & suf & bp & -> & Hsuf & Hp & Ht). exists (v :: pr), suf, bp. split; [done|]. split; [done|]. split; [|done]. by rewrite one_more_range, E1.
    + rewrite Hn2. f_equal. lia.
Qed.

(** ** merge *)
Lemma merge_loop_c_spec fuel : forall b l src i c, multi m = false -> repr b l -> shape kN src -> it (b_root src) i c -> length (elems (b_root src)) - i <= fuel ->
  forall n, match merge_loop_c key (fun _ => lt) kN m fuel b src c n with
            | MRet b' src' n' => merge_loop key lt kN m fuel b src c = Ok (b', src') /\ n' <= n
            | MThrow b' src' => exists l', repr b' l' /\ shape kN src' /\ l' ++ elems (b_root src') ≡ₚ l ++ elems (b_root src) /\ sublist (elems (b_root src')) (elems (b_root src))
            | MBad => False
            end.
Proof.
  induction fuel as [|fuel IH]; intros b l src i c Hmu Hb Hs Hc Hf n; cbn [merge_loop_c merge_loop]; destruct (end_spec kN src Hs) as (e & -> & He); cbn [rbind mcatch];
    rewrite (same_it kN src _ _ c e Hs Hc He); pose proof (it_le _ _ _ Hc) as Hle.
  - replace (i =? _) with true by lia. done.
  - destruct (i =? length (elems (b_root src))) eqn:E; [done|].
    destruct (lookup_lt_is_Some_2 (elems (b_root src)) i) as [v Hv]; [lia|]. rewrite (it_value _ _ _ v Hc Hv). cbn [rbind mcatch].
    assert (Hrun : runs (insert_unique_c key (fun _ => lt) kN m b v) (insert_unique key lt kN m b v) (if empty b then 0 else way kN m b + 1)) by (apply (insert_unique_c_runs key lt kN m); [done..|apply Hb]).
    destruct Hrun as (cost & Hcost & ->). destruct (insert_unique_spec key lt kN m Hlt HkN b l v Hmu Hb) as (b' & c' & -> & Hb' & _ & _).
    unfold after_cost. destruct (n <? cost) eqn:En; cbn [mcatch rbind].
    { destruct (empty b) eqn:Em; [lia|]. rewrite (with_root_full b Em). exists l. split_and!; auto. }
    destruct (has key lt (key v) l) eqn:Eh; cbn [negb].
    + destruct (next_it kN src i c Hs Hc) as (c1 & -> & Hc1); [lia|]. cbn [rbind mcatch].
      assert (set_insert key lt v l = l) as El by (unfold set_insert; by rewrite Eh). rewrite El in *. specialize (IH b' l src (S i) c1 Hmu Hb' Hs Hc1 ltac:(lia) (n - cost)).
      destruct (merge_loop_c key (fun _ => lt) kN m fuel b' src c1 (n - cost)); [|done|done]. destruct IH. split; [done|lia].
    + destruct (erase_spec key kN HkN src i c Hs Hc) as (s1 & c1 & -> & Hs1 & Hes & Hc1); [lia|]. cbn [rbind mcatch].
      specialize (IH b' _ s1 i c1 Hmu Hb' Hs1 Hc1 ltac:(rewrite Hes; unfold remove_at; rewrite app_length, take_length, drop_length; lia) (n - cost)).
      destruct (merge_loop_c key (fun _ => lt) kN m fuel b' s1 c1 (n - cost)) as [b2 s2 n2|b2 s2|]; [destruct IH; split; [done|lia]| |done].
      destruct IH as (l' & H1 & H2 & H3 & H4). exists l'. split; [done|]. split; [done|]. rewrite Hes in H3, H4. unfold remove_at in H3, H4. rewrite Nat.add_1_r in H3, H4.
      rewrite <- (take_drop_middle (elems (b_root src)) i v Hv). split.
      * rewrite H3. unfold set_insert. rewrite Eh, insert_perm. by rewrite <- !Permutation_middle.
      * etrans; [exact H4|]. apply sublist_app; [done|]. by constructor.
Qed.
(* the order of the values does not matter to the shape of the tree *)
Notation any := (OpsFacts.repr (fun _ : V => tt) (fun _ _ => false) kN (mkMode false true true)).
Lemma any_repr src l : any src l <-> shape kN src /\ elems (b_root src) = l.
Proof.
  split; [intros (H1 & H2 & _); auto|]. intros [H1 H2]. split; [done|]. split; [done|]. clear. induction l as [|x l IH]; constructor; [done|]. apply Forall_forall. intros; done.
Qed.
Lemma merge_multi_loop_c_spec moved fuel : forall b l src ls i c, multi m = true -> repr b l -> any src ls -> it (b_root src) i c -> length ls - i <= fuel ->
  forall n, match merge_multi_loop_c key (fun _ => lt) kN m moved fuel b src c n with
            | MRet b' src' n' => exists l', values b' = Ok l' /\ l' ≡ₚ l ++ drop i ls /\ src' = new_btree
            | MThrow b' src' => exists l' j, i <= j < length ls /\ repr b' l' /\ l' ≡ₚ l ++ take (j - i) (drop i ls) /\ values src' = Ok (take i ls ++ map moved (take (j - i) (drop i ls)) ++ drop j ls)
            | MBad => False
            end.
Proof.
  induction fuel as [|fuel IH]; intros b l src ls i c Hmu Hb Hs Hc Hf n; pose proof (proj1 (any_repr src ls) Hs) as [Hsh Hls]; cbn [merge_multi_loop_c]; destruct (end_spec kN src Hsh) as (e & -> & He); cbn [rbind mcatch];
    rewrite (same_it kN src _ _ c e Hsh Hc He); pose proof (it_le _ _ _ Hc) as Hle; rewrite Hls in *.
  - replace (i =? length ls) with true by lia. exists l. split; [by apply (repr_values key lt kN m HkN)|]. rewrite drop_ge by lia. by rewrite app_nil_r.
  - destruct (i =? length ls) eqn:E. { exists l. split; [by apply (repr_values key lt kN m HkN)|]. rewrite drop_ge by lia. by rewrite app_nil_r. }
    destruct (lookup_lt_is_Some_2 ls i) as [v Hv]; [lia|]. rewrite (it_value _ _ _ v Hc) by (by rewrite Hls). cbn [rbind mcatch].
    destruct (one_more_runs b l v Hb) as (cost & Hcost & Hr). destruct (one_more_ok b l v Hb) as (b' & E1 & Hb'). specialize (Hr n). unfold one_more_c, hint_c in Hr. rewrite Hmu in Hr, Hb'. rewrite E1 in Hr.
    assert (Hins : exists c', (let! h := lift (end_ b) in insert_hint_multi_c key (fun _ => lt) kN m b h v) n = after_cost cost (Ok (b', c')) n).
    { unfold bindM in Hr |- *. destruct (lift (end_ b) n) as [[h n1]| | | |]; cbn [rbind] in *; try (unfold after_cost in *; destruct (n <? cost); [|done]; exists c; done).
      destruct (insert_hint_multi_c key (fun _ => lt) kN m b h v n1) as [[[b2 c2] n2]| | | |]; cbn [rbind ret] in Hr; unfold after_cost in *; destruct (n <? cost); cbn [rbind] in *; try done; try (by exists c).
      injection Hr as -> ->. by exists c2. }
    destruct Hins as (c1 & ->). unfold after_cost. destruct (n <? cost) eqn:En; cbn [mcatch rbind].
    { assert (with_root b = b) as ->. { destruct (empty b) eqn:Em; [lia|]. by apply with_root_full. }
      exists l, i. split; [lia|]. split; [done|]. rewrite Nat.sub_diag, take_0. cbn [map app]. rewrite app_nil_r, take_drop. split; [done|]. rewrite (values_spec key kN HkN src Hsh). by rewrite Hls. }
    edestruct (assign_spec (fun _ : V => tt) (fun _ _ => false) kN (mkMode false true true)) with (b := src) (l := ls) (i := i) (c := c) (v := moved v) (w := v) as (src' & c2 & -> & Hs' & Hc2 & _); [done..|]. cbn [mcatch].
    pose proof (proj1 (any_repr src' _) Hs') as [Hsh' Hls'].
    destruct (next_it kN src' i c2 Hsh' Hc2) as (c3 & -> & Hc3); [rewrite Hls', insert_length; lia|]. cbn [mcatch].
    specialize (IH b' _ src' _ (S i) c3 Hmu Hb' Hs' Hc3 ltac:(rewrite insert_length; lia) (n - cost)).
    assert (Hd : drop (S i) (<[i:=moved v]> ls) = drop (S i) ls) by (apply drop_insert_gt; lia).
    destruct (merge_multi_loop_c key (fun _ => lt) kN m moved fuel b' src' c3 (n - cost)) as [b2 s2 n2|b2 s2|]; [| |done].
    + destruct IH as (l' & H1 & H2 & H3). exists l'. split; [done|]. split; [|done]. rewrite H2, Hd, insert_perm, (drop_S _ v _ Hv). by rewrite <- Permutation_middle.
    + destruct IH as (l' & j & Hj & H1 & H2 & H3). rewrite insert_length in Hj. exists l', j. split; [lia|]. split; [done|]. rewrite Hd in H2, H3.
      rewrite (drop_S _ v _ Hv). replace (j - i) with (S (j - S i)) by lia. cbn [take map]. split.
      * rewrite H2, insert_perm. by rewrite <- Permutation_middle.
      * rewrite H3. f_equal. rewrite drop_insert_gt by lia. rewrite (take_S_r (<[i:=moved v]> ls) i (moved v)) by (apply list_lookup_insert; lia). rewrite take_insert by lia.
        by rewrite <- !app_assoc.
Qed.
End Props.

(** ** C70 *)
(** every call on one value: the number of comparisons is logarithmic, and if the comparator throws the container is the one before the call *)
Theorem C70_calls {V K} (key : V -> K) (lt : K -> K -> bool) kN m b l o : swo lt -> 3 <= kN -> reachable key lt kN m b -> values b = Ok l -> pre key l o -> is_range o = false ->
  exists b' r cost, call key lt kN m b o = Ok (b', r) /\ cost <= call_bound m kN (length l) o /\
    forall n, call_c key (fun _ => lt) kN m b o n = if n <? cost then CThrow b else CRet b' r (n - cost).
Proof. intros Hlt HkN Hb Hl. apply call_runs; auto. by eapply reachable_values. Qed.
Print Assumptions C70_calls.
(** a range: if the comparator throws, what was inserted is a part of the range from its front *)
Theorem C70_range {V K} (key : V -> K) (lt : K -> K -> bool) kN m b l vs : swo lt -> 3 <= kN -> reachable key lt kN m b -> values b = Ok l ->
  exists b' cost, call key lt kN m b (InsertRange vs) = Ok (b', RUnit) /\ cost <= call_bound m kN (length l) (InsertRange vs : op V K) /\
    forall n, if n <? cost then exists pre suf bp, vs = pre ++ suf /\ suf <> [] /\ call key lt kN m b (InsertRange pre) = Ok (bp, RUnit) /\ call_c key (fun _ => lt) kN m b (InsertRange vs) n = CThrow bp
              else call_c key (fun _ => lt) kN m b (InsertRange vs) n = CRet b' RUnit (n - cost).
Proof.
  intros Hlt HkN Hb Hl. destruct (range_runs key lt kN m Hlt HkN vs b l) as (b' & cost & H1 & H2 & _ & H3); [by eapply reachable_values|]. eauto.
Qed.
Print Assumptions C70_range.
(** a sorted range behind the values of the container: one comparison for each value *)
Theorem C70_append {V K} (key : V -> K) (lt : K -> K -> bool) kN m b l vs n : swo lt -> 3 <= kN -> reachable key lt kN m b -> values b = Ok l ->
  sorted key lt (multi m) (l ++ vs) -> length vs <= n ->
  exists b' n', call_c key (fun _ => lt) kN m b (InsertRange vs) n = CRet b' RUnit n' /\ values b' = Ok (l ++ vs) /\ n <= n' + length vs.
Proof.
  intros Hlt HkN Hb Hl Hso Hn. destruct (range_runs key lt kN m Hlt HkN vs b l) as (b' & cost & H1 & _ & H2 & H3); [by eapply reachable_values|].
  destruct (H2 Hso) as [Hc Hr]. specialize (H3 n). replace (n <? cost) with false in H3 by lia. exists b', (n - cost). split; [done|]. split; [by apply (repr_values key lt kN m HkN)|lia].
Qed.
Print Assumptions C70_append.
(** a right hint: at most two comparisons, whatever the size *)
Theorem C70_hint {V K} (key : V -> K) (lt : K -> K -> bool) kN m b l i v : swo lt -> 3 <= kN -> reachable key lt kN m b -> values b = Ok l -> i <= length l ->
  fits key lt m l i v ->
  exists b' r cost, call key lt kN m b (InsertHint i v) = Ok (b', r) /\ cost <= 2 /\ forall n, call_c key (fun _ => lt) kN m b (InsertHint i v) n = if n <? cost then CThrow b else CRet b' r (n - cost).
Proof.
  intros Hlt HkN Hb Hl Hi Hf. pose proof (reachable_values key lt kN m Hlt HkN b l Hb Hl) as Hr.
  destruct (call_runs key lt kN m Hlt HkN b l (InsertHint i v) Hr Hi eq_refl) as (b' & r & cost & Hc & Hco & Hn). exists b', r, cost. split; [done|]. split; [|done].
  destruct l as [|x0 l0] eqn:El; [cbn in Hco; lia|]. rewrite <- El in *. assert (l <> []) as Hne by (by subst).
  destruct (begin_it key lt kN m b l Hr) as (g & Hg & Hig).
  assert (exists c, advance i g = Ok c /\ it (b_root b) i c) as (c & Hcc & Hic).
  { eapply (advance_spec kN HkN b 0 i g (proj1 Hr) Hig). rewrite (proj1 (proj2 Hr)). lia. }
  assert (Hat : at_index b i = Ok c) by (unfold at_index; rewrite Hg; exact Hcc).
  assert (Hrun : runs (let! h := lift (at_index b i) in
        if multi m then let! x := insert_hint_multi_c key (fun _ => lt) kN m b h v in pos_c x true
        else let! (b', c, _) := insert_hint_unique_c key (fun _ => lt) kN m b h v in pos_c (b', c) true) (call key lt kN m b (InsertHint i v)) 2).
  { cbn [call]. apply first_runs. intros h Hh. assert (h = c) as -> by congruence. destruct (multi m) eqn:Hmu.
    - eapply runs_le; [apply then_runs; by apply (right_hint_multi key lt kN m HkN b l i c v)|]. destruct (i =? length l); lia.
    - eapply runs_le; [apply runs_bind; [by apply (right_hint_unique key lt kN m HkN b l i c v)|intros [[b1 c1] i1] _; apply runs_lift]|]. destruct (i =? length l); lia. }
  destruct (catch_runs (with_root b) _ _ b' r 2 Hrun Hc) as (c2 & Hc2 & Hn2). enough (c2 = cost) by lia.
  specialize (Hn c2) as Ha. specialize (Hn2 cost) as Hb2. cbn [call_c] in Ha, Hn. rewrite (Hn2 c2) in Ha. rewrite (Hn cost) in Hb2. rewrite Nat.ltb_irrefl in Ha, Hb2.
  destruct (c2 <? cost) eqn:E1; [done|]. destruct (cost <? c2) eqn:E2; [done|]. lia.
Qed.
Print Assumptions C70_hint.
(** merge of sets and maps: if the comparator throws, every value is in one of the two containers *)
Theorem C70_merge {V K} (key : V -> K) (lt lt2 : K -> K -> bool) kN m m2 b src l ls n : swo lt -> swo lt2 -> 3 <= kN -> multi m = false ->
  reachable key lt kN m b -> values b = Ok l -> reachable key lt2 kN m2 src -> values src = Ok ls ->
  match merge_unique_c key (fun _ => lt) kN m b src n with
  | MRet b' src' n' => merge_unique key lt kN m b src = Ok (b', src') /\ n' <= n
  | MThrow b' src' => exists l' ls', values b' = Ok l' /\ values src' = Ok ls' /\ l' ++ ls' ≡ₚ l ++ ls /\ sorted key lt false l' /\ sorted key lt2 (multi m2) ls' /\
      b_size b' = length l' /\ b_size src' = length ls'
  | MBad => False
  end.
Proof.
  intros Hlt Hlt2 HkN Hmu Hb Hl Hsrc Hls. pose proof (reachable_values key lt kN m Hlt HkN b l Hb Hl) as Hr. pose proof (reachable_values key lt2 kN m2 Hlt2 HkN src ls Hsrc Hls) as (Hsh & He & Hso).
  unfold merge_unique_c, merge_unique. destruct (begin_spec kN src Hsh) as (c & -> & Hc). cbn [mcatch rbind].
  pose proof (merge_loop_c_spec key lt kN m Hlt HkN (b_size src) b l src 0 c Hmu Hr Hsh Hc ltac:(rewrite (size_shape kN src Hsh); lia) n) as H.
  destruct (merge_loop_c key (fun _ => lt) kN m (b_size src) b src c n) as [b' s' n'|b' s'|]; [done| |done]. destruct H as (l' & Hb' & Hs' & Hp & Hsub). rewrite He in *. exists l', (elems (b_root s')).
  split; [by apply (repr_values key lt kN m HkN)|]. split; [by apply (values_spec key kN HkN)|]. split; [done|].
  pose proof (repr_sorted key lt kN m b' l' Hb') as Hs1. rewrite Hmu in Hs1. split; [done|]. split; [|split; [by apply (repr_size key lt kN m)|by apply (size_shape kN)]].
  clear -Hsub Hso. revert Hso. induction Hsub as [|x l1 l2 Hsub IH|x l1 l2 Hsub IH]; intros Hs; [constructor| |]; inversion Hs as [|? ? Hs2 Hf]; subst.
  - constructor; [by apply IH|]. clear -Hsub Hf. revert Hf. induction Hsub; intros Hf; [done| |]; apply Forall_cons in Hf as [? ?]; auto.
  - by apply IH.
Qed.
Print Assumptions C70_merge.
(** merge of multisets and multimaps: if the comparator throws, the values that were moved are in the target, and what a move leaves of them is still in the source *)
Theorem C70_multi_merge_partial {V K} (key : V -> K) (lt lt2 : K -> K -> bool) kN m m2 moved b src l ls n : swo lt -> swo lt2 -> 3 <= kN -> multi m = true ->
  reachable key lt kN m b -> values b = Ok l -> reachable key lt2 kN m2 src -> values src = Ok ls ->
  match merge_multi_c key (fun _ => lt) kN m moved b src n with
  | MRet b' src' n' => exists l', values b' = Ok l' /\ l' ≡ₚ l ++ ls /\ src' = new_btree
  | MThrow b' src' => exists l' j, j < length ls /\ values b' = Ok l' /\ sorted key lt true l' /\ l' ≡ₚ l ++ take j ls /\ values src' = Ok (map moved (take j ls) ++ drop j ls)
  | MBad => False
  end.
Proof.
  intros Hlt Hlt2 HkN Hmu Hb Hl Hsrc Hls. pose proof (reachable_values key lt kN m Hlt HkN b l Hb Hl) as Hr. pose proof (reachable_values key lt2 kN m2 Hlt2 HkN src ls Hsrc Hls) as (Hsh & He & Hso).
  unfold merge_multi_c. destruct (begin_spec kN src Hsh) as (c & -> & Hc). cbn [mcatch].
  pose proof (merge_multi_loop_c_spec key lt kN m Hlt HkN moved (b_size src) b l src ls 0 c Hmu Hr (proj2 (any_repr kN src ls) (conj Hsh He)) Hc ltac:(rewrite (size_shape kN src Hsh), He; lia) n) as H.
  destruct (merge_multi_loop_c key (fun _ => lt) kN m moved (b_size src) b src c n) as [b' s' n'|b' s'|]; [by rewrite drop_0 in H| |done].
  destruct H as (l' & j & Hj & Hb' & Hp & Hv). rewrite drop_0, Nat.sub_0_r in Hp, Hv. cbn [take app] in Hv. exists l', j. split; [lia|]. split; [by apply (repr_values key lt kN m HkN)|].
  pose proof (repr_sorted key lt kN m b' l' Hb') as Hs1. rewrite Hmu in Hs1. auto.
Qed.
Print Assumptions C70_multi_merge_partial.

(** std::multiset and std::multimap move no value until it has been compared, and leave none behind; here a merge that ends with an exception leaves the
    values that it has moved in both containers: more values than before *)
Definition m_all : mode := mkMode false true true.
Definition m_left : btree nat := match run (fun x : nat => x) Nat.ltb 3 m_all new_btree [InsertRange [1; 3; 5; 7]] with Ok (b, _) => b | _ => new_btree end.
Definition m_right : btree nat := match run (fun x : nat => x) Nat.ltb 3 m_all new_btree [InsertRange [2; 4; 6]] with Ok (b, _) => b | _ => new_btree end.
Theorem C70_multi_merge_refuted : exists (b src : btree nat) n b' src' l ls l' ls',
  reachable (fun x : nat => x) Nat.ltb 3 m_all b /\ reachable (fun x : nat => x) Nat.ltb 3 m_all src /\ values b = Ok l /\ values src = Ok ls /\
  merge_multi_c (fun x : nat => x) (fun _ => Nat.ltb) 3 m_all (fun x => x) b src n = MThrow b' src' /\ values b' = Ok l' /\ values src' = Ok ls' /\ length (l ++ ls) < length (l' ++ ls').
Proof.
  exists m_left, m_right, 6. do 6 eexists.
  split. { exists [InsertRange [1; 3; 5; 7]], [RUnit]. split; [by safe_step|by vm_compute]. }
  split. { exists [InsertRange [2; 4; 6]], [RUnit]. split; [by safe_step|by vm_compute]. }
  split; [by vm_compute|]. split; [by vm_compute|]. split; [vm_compute; reflexivity|]. split; [by vm_compute|]. split; [by vm_compute|]. cbn. lia.
Qed.
Print Assumptions C70_multi_merge_refuted.
(* keys that a move empties: the source is no longer sorted, and a value is not found although it is there *)
Theorem C70_multi_merge_order_refuted : exists (b src : btree nat) n b' src' ls', reachable (fun x : nat => x) Nat.ltb 3 m_all b /\ reachable (fun x : nat => x) Nat.ltb 3 m_all src /\
  merge_multi_c (fun x : nat => x) (fun _ => Nat.ltb) 3 m_all (fun _ => 9) b src n = MThrow b' src' /\ values src' = Ok ls' /\ In 4 ls' /\ call (fun x : nat => x) Nat.ltb 3 m_all src' (Contains 4) = Ok (src', RBool false).
Proof.
  exists m_left, m_right, 6. do 3 eexists.
  split. { exists [InsertRange [1; 3; 5; 7]], [RUnit]. split; [by safe_step|by vm_compute]. }
  split. { exists [InsertRange [2; 4; 6]], [RUnit]. split; [by safe_step|by vm_compute]. }
  split; [vm_compute; reflexivity|]. split; [vm_compute; reflexivity|]. split; [cbn; tauto|by vm_compute].
Qed.
Print Assumptions C70_multi_merge_order_refuted.

(** cases *)
Example C70_calls_case : call_bound set_mode 3 20 (Find 7 : op nat nat) = 13 /\ pre (fun x : nat => x) (seq 0 20) (Insert 33 : op nat nat) /\
  (exists b', call_c (fun x : nat => x) (fun _ => Nat.ltb) 3 set_mode a_set (Insert 33) 13 = CRet b' (RPos 20 true) 9) /\
  call_c (fun x : nat => x) (fun _ => Nat.ltb) 3 set_mode a_set (Insert 33) 3 = CThrow a_set /\
  call_c (fun x : nat => x) (fun _ => Nat.ltb) 3 set_mode a_set (Find 7) 4 = CThrow a_set.
Proof. split; [by vm_compute|]. split; [done|]. split; [eexists; vm_compute; reflexivity|]. split; by vm_compute. Qed.
Example C70_range_case : exists b', call_c (fun x : nat => x) (fun _ => Nat.ltb) 3 set_mode a_set (InsertRange [20; 21; 5; 22]) 6 = CThrow b' /\ values b' = Ok (seq 0 22).
Proof. eexists. split; [vm_compute; reflexivity|by vm_compute]. Qed.
Example C70_append_case : sorted (fun x : nat => x) Nat.ltb false (seq 0 20 ++ [21; 23; 25]) /\ exists b', call_c (fun x : nat => x) (fun _ => Nat.ltb) 3 set_mode a_set (InsertRange [21; 23; 25]) 3 = CRet b' RUnit 0.
Proof. split; [cbn; repeat (constructor; [|repeat constructor]); repeat constructor|eexists; vm_compute; reflexivity]. Qed.
Example C70_hint_case : fits (fun x : nat => x) Nat.ltb set_mode [1; 3; 5; 7; 9] 2 4 /\ fits (fun x : nat => x) Nat.ltb multi_mode [1; 3; 5; 7; 9] 2 5.
Proof. split; (split; [intros [|[|j]] x Hj Hx; simplify_eq/=; lia|intros y Hy; simplify_eq/=; lia]). Qed.
Example C70_merge_case : exists b' src', merge_unique_c (fun x : nat => x) (fun _ => Nat.ltb) 3 set_mode odds a_set 30 = MThrow b' src' /\ b_size b' = 15 /\ b_size src' = 17.
Proof. eexists _, _. vm_compute. done. Qed.
