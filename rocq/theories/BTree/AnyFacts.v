(** The B-tree containers with an arbitrary comparator: one that orders nothing, contradicts itself from call to call, or throws. *)
From stdpp Require Import list.
From Coq Require Import Arith Lia ZifyBool ZifyNat Sorting.Sorted.
From Verif.Common Require Import Res.
From Verif.BTree Require Import Tree TreeFacts Balance Search Spec SearchFacts Ops Iter OpsFacts SpecFacts Refine Refine2 Api ApiSpec ApiFacts Compare.
Local Open Scope nat_scope.
Local Open Scope res_scope.

(** [c] has a value that satisfies [P], or throws, which it does only if [T] *)
Definition post {A} (T : Prop) (c : M A) (P : A -> Prop) : Prop := forall n, match c n with Ok (a, _) => P a | Throw => T | _ => False end.
Lemma post_ret {A} (T : Prop) (a : A) (P : A -> Prop) : P a -> post T (ret a) P.
Proof. intros H n. exact H. Qed.
Lemma post_lift {A} (T : Prop) (r : res A) a (P : A -> Prop) : r = Ok a -> P a -> post T (lift r) P.
Proof. intros -> H n. exact H. Qed.
Lemma post_ask {A} (T : Prop) (x : nat -> A) : T -> post T (ask x) (fun _ => True).
Proof. intros H [|n]; cbn; auto. Qed.
Lemma post_bind {A B} (T : Prop) (c : M A) (k : A -> M B) (P : A -> Prop) (Q : B -> Prop) : post T c P -> (forall a, P a -> post T (k a) Q) -> post T (bindM c k) Q.
Proof. intros H Hk n. unfold bindM. specialize (H n). destruct (c n) as [[a n']| | | |]; cbn [rbind]; auto. apply Hk. exact H. Qed.
Lemma post_impl {A} (T : Prop) (c : M A) (P Q : A -> Prop) : post T c P -> (forall a, P a -> Q a) -> post T c Q.
Proof. intros H Hpq n. specialize (H n). destruct (c n) as [[a n']| | | |]; auto. Qed.
Lemma post_weaken {A} (T : Prop) (c : M A) (P : A -> Prop) : post False c P -> post T c P.
Proof. intros H n. specialize (H n). destruct (c n) as [[a n']| | | |]; tauto. Qed.
Lemma post_mono {A} (T T' : Prop) (c : M A) (P : A -> Prop) : post T c P -> (T -> T') -> post T' c P.
Proof. intros H HT n. specialize (H n). destruct (c n) as [[a n']| | | |]; tauto. Qed.
Lemma post_asked {A B} (T : Prop) (x : nat -> A) (k : A -> M B) (Q : B -> Prop) : T -> (forall a, post T (k a) Q) -> post T (bindM (ask x) k) Q.
Proof. intros HT H. eapply post_bind; [by apply post_ask|]. intros a _. apply H. Qed.
Lemma post_then {A B} (T : Prop) (r : res A) a (k : A -> M B) (Q : B -> Prop) : r = Ok a -> post T (k a) Q -> post T (bindM (lift r) k) Q.
Proof. intros H Hk. eapply post_bind; [by eapply post_lift; [exact H|exact (eq_refl a)]|]. by intros ? <-. Qed.

Lemma mid_bounds s e : s < e -> s <= (s + e) / 2 < e.
Proof. intros H. pose proof (Nat.div_mod (s + e) 2 ltac:(lia)). pose proof (Nat.mod_upper_bound (s + e) 2 ltac:(lia)). lia. Qed.
Section Nodes.
Context {K : Type} (lt : nat -> K -> K -> bool) (m : mode).
Lemma linear_bool_post comp k (ks : list K) : post (ks <> []) (linear_bool_c comp k ks) (fun i => i <= length ks).
Proof.
  induction ks as [|x ks IH]; cbn [linear_bool_c length]; [by apply post_ret|]. apply post_asked; [done|]. intros [|]; [|apply post_ret; lia].
  intros n. specialize (IH n). unfold bindM. destruct (linear_bool_c comp k ks n) as [[a n']| | | |]; cbn [rbind]; try done. cbn. lia.
Qed.
Lemma linear_three_post k (ks : list K) : post (ks <> []) (linear_three_c lt k ks) (fun x => fst x <= length ks /\ (snd x = true -> fst x < length ks)).
Proof.
  induction ks as [|x ks IH]; cbn [linear_three_c length]; [by apply post_ret|]. apply post_asked; [done|]. intros [| |]; try (apply post_ret; cbn; lia).
  intros n. specialize (IH n). unfold bindM. destruct (linear_three_c lt k ks n) as [[[i e] n']| | | |]; cbn [rbind]; try done. cbn in *. lia.
Qed.
Lemma binary_bool_post comp k (ks : list K) fuel : forall s e, s <= e <= length ks -> post (ks <> []) (binary_bool_c comp k ks fuel s e) (fun i => s <= i <= e).
Proof.
  induction fuel as [|fuel IH]; intros s e Hse; cbn [binary_bool_c]; [apply post_ret; lia|]. destruct (s =? e) eqn:E; [apply post_ret; lia|]. cbv zeta.
  pose proof (mid_bounds s e ltac:(lia)) as Hm. destruct (lookup_lt_is_Some_2 ks ((s + e) / 2)) as [x ->]; [lia|]. apply post_asked; [intros ->; cbn in Hse; lia|].
  intros [|]; (eapply post_impl; [apply IH; lia|]; cbv beta; intros; lia).
Qed.
Lemma binary_three_post mu k (ks : list K) fuel : forall s e ex, s <= e <= length ks -> (ex = true -> e < length ks) ->
  post (ks <> []) (binary_three_c lt mu k ks fuel s e ex) (fun x => fst x <= length ks /\ (snd x = true -> fst x < length ks)).
Proof.
  induction fuel as [|fuel IH]; intros s e ex Hse Hex; cbn [binary_three_c]; [apply post_ret; cbn; split; [lia|intros H; specialize (Hex H); lia]|].
  destruct (s =? e) eqn:E; [apply post_ret; cbn; split; [lia|intros H; specialize (Hex H); lia]|]. cbv zeta.
  pose proof (mid_bounds s e ltac:(lia)) as Hm. destruct (lookup_lt_is_Some_2 ks ((s + e) / 2)) as [x ->]; [lia|]. apply post_asked; [intros ->; cbn in Hse; lia|].
  intros [| |]; [destruct mu; [apply IH; lia|apply post_ret; cbn [fst snd]; lia]|apply IH; [lia|done]|apply IH; [lia|]; intros H; specialize (Hex H); lia].
Qed.
(** a search of a node finds a position of the node, and a value if it says so *)
Definition inside (stop : bool) (ks : list K) (x : nat * bool) : Prop := fst x <= length ks /\ (stop = true -> snd x = true -> fst x < length ks).
Lemma node_lower_post k (ks : list K) (stop : bool) : (stop = true -> three m = true) -> post (ks <> []) (node_lower_c lt m k ks) (inside stop ks).
Proof.
  intros Hst. unfold node_lower_c, inside. destruct (three m), (linear m).
  - eapply post_impl; [apply linear_three_post|]. cbv beta. tauto.
  - eapply post_impl; [apply binary_three_post; [lia|done]|]. cbv beta. tauto.
  - eapply post_bind; [apply linear_bool_post|]. intros i Hi. apply post_ret. cbn. done.
  - eapply post_bind; [apply binary_bool_post; lia|]. intros i Hi. cbv beta in Hi. apply post_ret. cbn. split; [lia|done].
Qed.
Lemma node_upper_post k (ks : list K) : post (ks <> []) (node_upper_c lt m k ks) (inside false ks).
Proof.
  unfold node_upper_c, inside. destruct (linear m).
  - eapply post_bind; [apply linear_bool_post|]. intros i Hi. apply post_ret. cbn. done.
  - eapply post_bind; [apply binary_bool_post; lia|]. intros i Hi. cbv beta in Hi. apply post_ret. cbn. split; [lia|done].
Qed.
End Nodes.

Section Any.
Context {V K : Type} (key : V -> K) (kN : nat).
Context (HkN : 3 <= kN).
Implicit Types (b : btree V) (t : node V) (f : frame V) (ps : list (frame V)) (v : V) (c d : cursor V) (l : list V).
Notation wf := (wf kN). Notation shape := (shape kN).
(** the container holds [l], in this order, whatever the comparator thinks about it: the relation of Refine.v for an order where all keys
    are equivalent *)
Definition flat : K -> K -> bool := fun _ _ => false.
Definition flat_mode := mkMode false true true.
Notation any := (repr key flat kN flat_mode).
Lemma flat_swo : swo flat.
Proof. split; done. Qed.
Lemma any_intro b l : shape b -> elems (b_root b) = l -> any b l.
Proof. intros H1 H2. split; [done|]. split; [done|]. clear. unfold sorted. induction l; constructor; [done|]. by apply Forall_forall. Qed.

Lemma descend_post (stop : bool) (pick : list K -> M (nat * bool)) h t ps : (forall ks, post (ks <> []) (pick ks) (inside stop ks)) -> wf h t ->
  post True (descend_c key h stop pick t ps) (fun x => root_of (fst x) = close_all ps t /\
    if snd x then stop = true /\ exists f gs, c_path (fst x) = f :: gs /\ f_r f <> [] else c_sub (fst x) = Nil /\ (ps <> [] \/ t <> Nil -> c_path (fst x) <> [])).
Proof.
  intros Hp. revert t ps. induction h as [|h IH]; intros [|a k0 rest] ps Hw; cbn [descend_c]; try done; [apply post_ret; cbn; tauto|].
  eapply post_bind. { intros n. specialize (Hp (map (fun x => key (fst x)) rest) n). destruct (pick _ n) as [[x n']| | | |]; [exact Hp|done|done|done|done]. }
  intros [i e] [Hi He]. cbn [fst snd] in Hi, He. rewrite map_length in Hi, He. destruct (child_at_spec i a k0 rest Hi) as (f & t' & E & Hcl & Hlen & _).
  eapply post_then; [exact E|]. cbn beta iota. assert (Hcnt : length rest = length (f_l f) + length (f_r f)).
  { revert Hcl. unfold close. destruct (glue _ _ _) as [k1 r1] eqn:Eg. intros ?; simplify_eq. by apply glue_length in Eg. }
  rewrite <- Hcl in Hw |- *. destruct (stop && e) eqn:Ese.
  - apply andb_true_iff in Ese as [-> ->]. apply post_ret. cbn. split; [done|]. split; [done|]. eexists _, _. split; [done|]. specialize (He eq_refl eq_refl). intros Hf. rewrite Hf in Hcnt. cbn in Hcnt. lia.
  - apply wf_close in Hw as (_ & Hw & _). eapply post_impl; [apply (IH t' (f :: ps) Hw)|]. cbn beta. intros [c x] [H1 H2]. split; [exact H1|]. destruct x; [done|]. destruct H2 as [H2 H3]. split; [done|]. intros _. apply H3. by left.
Qed.
Lemma whole_descend_post b l stop pick : any b l -> (forall ks, post (ks <> []) (pick ks) (inside stop ks)) ->
  post True (descend_c key (height (b_root b)) stop pick (b_root b) []) (fun x => root_of (fst x) = b_root b /\
    if snd x then stop = true /\ exists f gs, c_path (fst x) = f :: gs /\ f_r f <> [] else c_sub (fst x) = Nil /\ (b_root b <> Nil -> c_path (fst x) <> [])).
Proof.
  intros ((H & Hw & _) & _) Hp. rewrite (wf_height kN _ _ Hw). eapply post_impl; [by apply descend_post|]. cbn beta. intros [c x] [H1 H2]. split; [exact H1|]. destruct x; [done|]. destruct H2 as [H2 H3]. cbn [snd]. auto.
Qed.
(* an empty leaf, which an insertion into an empty container searches: nothing is compared *)
Lemma fresh_descend_post stop pick : (forall ks, post (ks <> []) (pick ks) (inside stop ks)) ->
  post False (descend_c key (height (b_root (fresh (V := V)))) stop pick (b_root fresh) []) (fun x => x = (mkCur [mkFrame both [] []] Nil, false)).
Proof.
  intros Hp. change (height (b_root fresh)) with 1. cbn [descend_c b_root fresh map]. eapply post_bind. { intros n. specialize (Hp [] n). destruct (pick [] n) as [[x n']| | | |]; [exact Hp|done..]. }
  intros [i e] [Hi He]. cbn in Hi, He. assert (i = 0) as -> by lia. cbn [child_at walk]. eapply post_then; [done|]. cbn beta iota. destruct (stop && e) eqn:E; [|by apply post_ret].
  apply andb_true_iff in E as [-> ->]. specialize (He eq_refl eq_refl). lia.
Qed.
Lemma lefts_bound b l c : any b l -> root_of c = b_root b -> length (lefts c) + length (rights c) = length l.
Proof. intros (_ & Hl & _) Hr. by rewrite <- Hl, <- Hr, root_elems, app_length. Qed.
Lemma last_any b l c : any b l -> root_of c = b_root b -> match internal_last c with Some c' => exists i, it (b_root b) i c' /\ i < length l | None => True end.
Proof.
  intros Hb Hr. pose proof (climb_result b c Hr) as H. pose proof (lefts_bound b l c Hb Hr). destruct (internal_last c) as [c'|]; [|done]. destruct H as [H1 H2]. eexists. split; [exact H1|].
  destruct (rights c); [done|]. cbn in *. lia.
Qed.
Lemma emplace_any b l c v : any b l -> root_of c = b_root b -> (c_sub c = Nil /\ c_path c <> []) \/ (normal c /\ b_root b <> Nil) ->
  exists i b' c', internal_emplace kN b c v = Ok (b', c') /\ any b' (insert_at i v l) /\ it (b_root b') i c' /\ i <= length l.
Proof.
  intros Hb Hr Hc. destruct (emplace_spec key kN HkN b c v (proj1 Hb) Hr Hc) as (b' & c' & E & Hs & He & Hi). exists (length (lefts c)), b', c'. split; [done|].
  destruct Hb as (_ & Hl & _). rewrite Hl in He. split; [by apply any_intro|]. split; [done|]. by rewrite <- Hl, <- Hr, root_elems, app_length, <- Nat.le_add_r.
Qed.
Lemma emplace_any_it b l i c v : any b l -> l <> [] -> it (b_root b) i c -> exists b' c', internal_emplace kN b c v = Ok (b', c') /\ any b' (insert_at i v l) /\ it (b_root b') i c'.
Proof.
  intros Hb Hne (Hr & Hn & Hi). destruct (emplace_spec key kN HkN b c v (proj1 Hb) Hr) as (b' & c' & E & Hs & He & Hi').
  { right. split; [done|]. intros H0. destruct Hb as (_ & Hl & _). by rewrite <- Hl, H0 in Hne. }
  exists b', c'. split; [done|]. rewrite Hi in *. destruct Hb as (_ & Hl & _). rewrite Hl in He. split; [by apply any_intro|done].
Qed.

Context (lt : nat -> K -> K -> bool) (m : mode).
Lemma internal_lower_post b l k : any b l -> post True (internal_lower_bound_c key lt m b k) (fun o => match o with Some c => exists i, it (b_root b) i c /\ i < length l | None => True end).
Proof.
  intros Hb. eapply post_bind; [apply (whole_descend_post b l false); [done|]|]. { intros ks. by apply node_lower_post. } intros [c e] [Hr _]. apply post_ret. by apply last_any.
Qed.
Lemma internal_upper_post b l k : any b l -> post True (internal_upper_bound_c key lt m b k) (fun o => match o with Some c => exists i, it (b_root b) i c /\ i < length l | None => True end).
Proof.
  intros Hb. eapply post_bind; [apply (whole_descend_post b l false); [done|]|]. { intros ks. by apply node_upper_post. } intros [c e] [Hr _]. apply post_ret. by apply last_any.
Qed.
Definition place b l (x : cursor V * bool) : Prop := root_of (fst x) = b_root b /\
  if snd x then three m = true /\ exists f gs, c_path (fst x) = f :: gs /\ f_r f <> [] else c_sub (fst x) = Nil /\ (b_root b <> Nil -> c_path (fst x) <> []).
Lemma locate_post b l k : any b l -> post True (internal_locate_c key lt m b k) (place b l).
Proof. intros Hb. apply (whole_descend_post b l); [done|]. intros ks. by apply node_lower_post. Qed.
Lemma check_post b l c e k : any b l -> place b l (c, e) -> post True (check_c key lt m c e k) (fun o => match o with Some c' => exists i, it (b_root b) i c' /\ i < length l | None => e = false end).
Proof.
  intros Hb [Hr He]. cbn [fst snd] in *. unfold check_c. destruct (three m).
  - apply post_ret. destruct e; [|done]. destruct He as (_ & f & gs & Hp & Hf). pose proof (lefts_bound b l c Hb Hr) as Hlen. exists (length (lefts c)). split; [split; [done|]; split; [|done]; unfold normal; rewrite Hp; by left|].
    unfold rights in Hlen. rewrite Hp in Hlen. cbn [after] in Hlen. destruct (f_r f) as [|[v t'] r]; [done|]. rewrite cat_r_cons in Hlen. cbn in Hlen. lia.
  - assert (e = false) as -> by (destruct e; [by destruct He|done]). pose proof (last_any b l c Hb Hr) as Hlast. destruct (internal_last c) as [c'|]; [|by apply post_ret]. destruct Hlast as (i & Hi & Hil).
    destruct (value_it key flat kN flat_mode b l i c' Hb Hi Hil) as (w & _ & Hw). eapply post_then; [exact Hw|]. apply post_asked; [done|]. intros [|]; apply post_ret; [done|eauto].
Qed.
Lemma internal_find_post b l k : any b l -> post True (internal_find_c key lt m b k) (fun o => match o with Some c => exists i, it (b_root b) i c /\ i < length l | None => True end).
Proof.
  intros Hb. eapply post_bind; [by apply (locate_post b l)|]. intros [c e] Hc. eapply post_impl; [by apply (check_post b l)|]. by intros [c'|].
Qed.
Lemma end_post b l (c : M (option (cursor V))) : any b l -> post True c (fun o => match o with Some c => exists i, it (b_root b) i c /\ i < length l | None => True end) ->
  post True (let! o := c in lift (internal_end b o)) (fun c => exists i, it (b_root b) i c /\ i <= length l).
Proof.
  intros Hb H. eapply post_bind; [exact H|]. intros [c'|].
  - intros (i & Hi & Hl). eapply post_lift; [done|]. exists i. split; [done|lia].
  - intros _. destruct (end_it key flat kN flat_mode b l Hb) as (e & He & Hie). eapply post_lift; [exact He|]. eauto.
Qed.
Lemma lower_post b l k : any b l -> post True (lower_bound_c key lt m b k) (fun c => exists i, it (b_root b) i c /\ i <= length l).
Proof. intros Hb. apply end_post; [done|]. by apply internal_lower_post. Qed.
Lemma upper_post b l k : any b l -> post True (upper_bound_c key lt m b k) (fun c => exists i, it (b_root b) i c /\ i <= length l).
Proof. intros Hb. apply end_post; [done|]. by apply internal_upper_post. Qed.
Lemma find_post b l k : any b l -> post True (find_c key lt m b k) (fun c => exists i, it (b_root b) i c /\ i <= length l).
Proof. intros Hb. apply end_post; [done|]. by apply internal_find_post. Qed.

(** insertions throw only if there is something to compare with *)
Definition added b l v (x : btree V * cursor V * bool) : Prop := let '(b', c', ins) := x in
  if ins then exists i, i <= length l /\ any b' (insert_at i v l) /\ it (b_root b') i c' else b' = b /\ exists i, i < length l /\ it (b_root b) i c'.
Lemma insert_unique_post b l v : any b l -> post (l <> []) (insert_unique_c key lt kN m b v) (added b l v).
Proof.
  intros Hb. unfold insert_unique_c. rewrite fresh_root, (repr_empty key flat kN flat_mode b l Hb). destruct l as [|x l]; cbn [length Nat.eqb].
  - apply post_weaken. eapply post_bind. { apply fresh_descend_post. intros ks. by apply node_lower_post. } intros ? ->. cbn beta iota.
    unfold check_c, internal_last. cbn [c_path c_sub climb f_r]. destruct (emplace_fresh key flat kN flat_mode HkN v) as (b' & c' & E & Hr & Hi).
    destruct (three m); (eapply post_bind; [by apply (post_ret _ _ (fun o => o = None))|]; intros ? ->; eapply post_then; [exact E|]; apply post_ret; cbn; exists 0; auto).
  - apply (post_mono True); [|done]. cbv zeta.
    eapply post_bind; [by apply (locate_post b (x :: l))|]. intros [c e] Hc. eapply post_bind; [by apply (check_post b (x :: l))|]. intros [c'|].
    + intros (i & Hi & Hil). apply post_ret. cbn [added]. eauto.
    + intros ->. destruct Hc as (Hr & Hs & Hp). cbn [fst snd] in *. destruct (emplace_any b (x :: l) c v Hb Hr) as (i & b' & c' & E & Hb' & Hi & Hil).
      { left. split; [done|]. apply Hp. intros H0. destruct Hb as (_ & Hl & _). by rewrite H0 in Hl. }
      eapply post_then; [exact E|]. apply post_ret. cbn [added]. eauto.
Qed.
Lemma insert_multi_post b l v : any b l -> post (l <> []) (insert_multi_c key lt kN m b v) (fun '(b', c') => added b l v (b', c', true)).
Proof.
  intros Hb. unfold insert_multi_c. rewrite fresh_root, (repr_empty key flat kN flat_mode b l Hb). destruct l as [|x l]; cbn [length Nat.eqb].
  - apply post_weaken. eapply post_bind. { eapply post_bind; [apply fresh_descend_post; intros ks; by apply node_upper_post|]. intros ? ->. apply post_ret. exact (eq_refl None). } intros ? <-.
    destruct (emplace_fresh key flat kN flat_mode HkN v) as (b' & c' & E & Hr & Hi). eapply post_then; [done|]. eapply post_lift; [exact E|]. cbn. exists 0. auto.
  - apply (post_mono True); [|done]. cbv zeta. eapply post_bind; [by apply (internal_upper_post b (x :: l))|]. intros o Ho.
    assert (exists i c, internal_end b o = Ok c /\ it (b_root b) i c /\ i <= length (x :: l)) as (i & c & Ec & Hi & Hil).
    { destruct o as [c|]; [destruct Ho as (i & ? & ?); exists i, c; split; [done|split; [done|lia]]|]. destruct (end_it key flat kN flat_mode b (x :: l) Hb) as (e & He & Hie). eauto. }
    eapply post_then; [exact Ec|]. destruct (emplace_any_it b (x :: l) i c v Hb ltac:(done) Hi) as (b' & c' & E & Hb' & Hi'). eapply post_lift; [exact E|]. cbn [added]. eauto.
Qed.
Lemma insert_hint_unique_post b l i c v : any b l -> it (b_root b) i c -> post (l <> []) (insert_hint_unique_c key lt kN m b c v) (added b l v).
Proof.
  intros Hb Hc. unfold insert_hint_unique_c. cbv zeta. rewrite (repr_empty key flat kN flat_mode b l Hb). destruct (length l =? 0) eqn:E0; [by apply insert_unique_post|].
  assert (Hne : l <> []) by (by intros ->). pose proof (it_bound key flat kN flat_mode b l i c Hb Hc) as Hil.
  destruct (end_it key flat kN flat_mode b l Hb) as (e & Ee & He). eapply post_then; [exact Ee|]. rewrite (same_r key flat kN flat_mode b l i (length l) c e Hb Hc He).
  eapply (post_bind _ _ _ (fun x => x = false -> i < length l)).
  { destruct (i =? length l) eqn:E1; [by apply post_ret|]. destruct (value_it key flat kN flat_mode b l i c Hb Hc) as (w & _ & Hw); [lia|]. eapply post_then; [exact Hw|].
    eapply post_impl; [by apply post_ask|]. cbn. lia. }
  intros [|] Hx.
  - destruct (begin_it key flat kN flat_mode b l Hb) as (g & Eg & Hg). eapply post_then; [exact Eg|]. rewrite (same_r key flat kN flat_mode b l i 0 c g Hb Hc Hg).
    eapply (post_bind _ _ _ (fun _ => True)).
    { destruct i as [|i]; cbn [Nat.eqb]; [by apply post_ret|]. destruct (prev_r key flat kN flat_mode b l i c Hb Hc) as (p & Ep & Hp & _). eapply post_then; [exact Ep|].
      destruct (value_it key flat kN flat_mode b l i p Hb Hp) as (w & _ & Hw); [lia|]. eapply post_then; [exact Hw|]. by apply post_ask. }
    intros [|] _; [|by apply insert_unique_post]. destruct (emplace_any_it b l i c v Hb Hne Hc) as (b' & c' & E & Hb' & Hi'). eapply post_then; [exact E|]. apply post_ret. cbn. eauto.
  - specialize (Hx eq_refl). destruct (value_it key flat kN flat_mode b l i c Hb Hc Hx) as (w & _ & Hw). eapply post_then; [exact Hw|]. apply post_asked; [done|]. intros [|]; [|apply post_ret; cbn; eauto].
    destruct (next_r key flat kN flat_mode b l i c Hb Hc Hx) as (c1 & E1 & Hc1). eapply post_then; [exact E1|]. rewrite (same_r key flat kN flat_mode b l (S i) (length l) c1 e Hb Hc1 He).
    eapply (post_bind _ _ _ (fun _ => True)).
    { destruct (S i =? length l) eqn:E2; [by apply post_ret|]. destruct (value_it key flat kN flat_mode b l (S i) c1 Hb Hc1) as (w1 & _ & Hw1); [lia|]. eapply post_then; [exact Hw1|]. by apply post_ask. }
    intros [|] _; [|by apply insert_unique_post]. destruct (emplace_any_it b l (S i) c1 v Hb Hne Hc1) as (b' & c' & E & Hb' & Hi'). eapply post_then; [exact E|]. apply post_ret. cbn. exists (S i). split; [lia|done].
Qed.
Lemma insert_hint_multi_post b l i c v : any b l -> it (b_root b) i c -> post (l <> []) (insert_hint_multi_c key lt kN m b c v) (fun '(b', c') => added b l v (b', c', true)).
Proof.
  intros Hb Hc. unfold insert_hint_multi_c. cbv zeta. rewrite (repr_empty key flat kN flat_mode b l Hb). destruct (length l =? 0) eqn:E0; [by apply insert_multi_post|].
  assert (Hne : l <> []) by (by intros ->). pose proof (it_bound key flat kN flat_mode b l i c Hb Hc) as Hil.
  destruct (end_it key flat kN flat_mode b l Hb) as (e & Ee & He). eapply post_then; [exact Ee|]. rewrite (same_r key flat kN flat_mode b l i (length l) c e Hb Hc He).
  eapply (post_bind _ _ _ (fun x => x = false -> i < length l)).
  { destruct (i =? length l) eqn:E1; [by apply post_ret|]. destruct (value_it key flat kN flat_mode b l i c Hb Hc) as (w & _ & Hw); [lia|]. eapply post_then; [exact Hw|].
    eapply post_impl; [by apply post_ask|]. cbn. lia. }
  intros [|] Hx.
  - destruct (begin_it key flat kN flat_mode b l Hb) as (g & Eg & Hg). eapply post_then; [exact Eg|]. rewrite (same_r key flat kN flat_mode b l i 0 c g Hb Hc Hg).
    eapply (post_bind _ _ _ (fun _ => True)).
    { destruct i as [|i]; cbn [Nat.eqb]; [by apply post_ret|]. destruct (prev_r key flat kN flat_mode b l i c Hb Hc) as (p & Ep & Hp & _). eapply post_then; [exact Ep|].
      destruct (value_it key flat kN flat_mode b l i p Hb Hp) as (w & _ & Hw); [lia|]. eapply post_then; [exact Hw|]. by apply post_ask. }
    intros [|] _; [|by apply insert_multi_post]. destruct (emplace_any_it b l i c v Hb Hne Hc) as (b' & c' & E & Hb' & Hi'). eapply post_lift; [exact E|]. cbn. eauto.
  - specialize (Hx eq_refl). destruct (next_r key flat kN flat_mode b l i c Hb Hc Hx) as (c1 & E1 & Hc1). eapply post_then; [exact E1|]. rewrite (same_r key flat kN flat_mode b l (S i) (length l) c1 e Hb Hc1 He).
    eapply (post_bind _ _ _ (fun _ => True)).
    { destruct (S i =? length l) eqn:E2; [by apply post_ret|]. destruct (value_it key flat kN flat_mode b l (S i) c1 Hb Hc1) as (w1 & _ & Hw1); [lia|]. eapply post_then; [exact Hw1|]. by apply post_ask. }
    intros [|] _; [|by apply insert_multi_post]. destruct (emplace_any_it b l (S i) c1 v Hb Hne Hc1) as (b' & c' & E & Hb' & Hi'). eapply post_lift; [exact E|]. cbn. exists (S i). split; [lia|done].
Qed.
End Any.
