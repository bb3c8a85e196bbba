(** Properties of the slot arrays of the B-tree nodes: C53 (lifetimes inside the nodes) and C36 (inserting a reference to an
    element of the same container). *)
From stdpp Require Import list.
From Coq Require Import Arith Lia ZifyBool ZifyNat Sorting.Sorted.
From Verif.Common Require Import Res.
From Verif.BTree Require Import Slots SlotsFacts SlotsOps SlotsOps2 SlotsRoot Spec SpecFacts.
Local Open Scope nat_scope.
Local Open Scope res_scope.

Section PropsSlots.
Context {V C : Type} `{EqDecision C} (gone : V) (kN : nat).
Notation st := (st V C).
Notation good_ := (good_ kN).
Notation good := (good_ false).
Notation lf := (lf kN).
Implicit Types (s : st) (i j k n p : nat) (v d : V) (f : role -> list V) (g : role -> list C) (vs : list V).

Lemma take_more {A} (l1 l2 : list A) n : take (length l1 + n) (l1 ++ l2) = l1 ++ take n l2.
Proof. induction l1; cbn; [done|]. by f_equal. Qed.
Lemma drop_more {A} (l1 l2 : list A) n : drop (length l1 + n) (l1 ++ l2) = drop n l2.
Proof. induction l1; cbn; done. Qed.

Lemma good_lf lone s f g r : good_ lone s f g -> inner s r = false -> lf s r (f r).
Proof. intros H Hi. constructor; try apply H; auto. Qed.

(** *** C53: element lifetimes inside the nodes.
    [good s f g]: the three nodes hold the values f, one in each slot below count() and none above, and the children g, each
    with the right parent and position.  Every function of the nodes runs without undefined behaviour (no slot is read,
    assigned or destroyed that holds no value, none constructed that holds one) and leaves such a state, with each value
    and each child in exactly one place. *)
Theorem C53_emplace s f g r i v : good s f g -> i <= length (f r) < cap s r -> r <> P -> inner s r = false ->
  exists s', emplace_value gone kN s r i (Val v) = Ok (s', false) /\ lf s' r (take i (f r) ++ v :: drop i (f r)) /\
    (forall r' k, r' <> r -> cells s' r' k = cells s r' k).
Proof.
  intros H Hi Hr Hin. assert (Hlf : lf s r (f r)) by (eapply good_lf; eauto). destruct (emplace_leaf_ok gone kN s r i v (f r) Hlf Hi) as (s' & E & H1 & _ & _ & H2).
  by exists s'.
Qed.
Theorem C53_rebalance_right_to_left s f g p d n y : good s f g -> siblings s g p -> f P !! p = Some d -> 1 <= n <= length (f R) -> length (f L) + n <= cap s L ->
  f R !! (n - 1) = Some y ->
  exists s', rebalance_right_to_left gone kN s n = Ok s' /\ frame s s' g /\
    good s' (three (f L ++ d :: take (n - 1) (f R)) (<[p := y]> (f P)) (drop n (f R)))
            (three (g L ++ take n (g R)) (g P) (drop n (g R))).
Proof.
  intros H Hp Hd Hn Hc Hy. destruct (rebalance_right_to_left_ok gone kN s f g p d n y) as (s' & E & Hg & Hf); auto. exists s'. split; [done|]. split; [done|].
  unfold recut in Hg. cbn [fst snd] in Hg.
  assert (E1 : take (length (f L) + n) (f L ++ d :: f R) = f L ++ d :: take (n - 1) (f R)).
  { rewrite take_more. f_equal. destruct n; [lia|]. cbn. by rewrite Nat.sub_0_r. }
  assert (E2 : drop (S (length (f L) + n)) (f L ++ d :: f R) = drop n (f R)).
  { replace (S (length (f L) + n)) with (length (f L) + S n) by lia. by rewrite drop_more. }
  rewrite E1, E2 in Hg. pose proof (g_full kN _ _ _ H L) as HL. pose proof (g_full kN _ _ _ H R) as HR. destruct (g_inner H) as [_ Hi]. rewrite <- Hi in HR. destruct (inner s L).
  - replace (S (length (f L) + n)) with (length (g L) + n) in Hg by lia. by rewrite take_more, drop_more in Hg.
  - assert (HL' : g L = []) by (by destruct (g L)). assert (HR' : g R = []) by (by destruct (g R)). rewrite HL', HR' in Hg |- *. by rewrite !take_nil, !drop_nil in *.
Qed.
Theorem C53_rebalance_left_to_right s f g p d n y : good s f g -> siblings s g p -> f P !! p = Some d -> 1 <= n <= length (f L) -> length (f R) + n <= cap s R ->
  f L !! (length (f L) - n) = Some y ->
  exists s', rebalance_left_to_right gone kN s n = Ok s' /\ frame s s' g /\
    good s' (three (take (length (f L) - n) (f L)) (<[p := y]> (f P)) (drop (S (length (f L) - n)) (f L) ++ d :: f R))
            (three (take (length (g L) - n) (g L)) (g P) (drop (length (g L) - n) (g L) ++ g R)).
Proof.
  intros H Hp Hd Hn Hc Hy. destruct (rebalance_left_to_right_ok gone kN s f g p d n y) as (s' & E & Hg & Hf); auto. exists s'. split; [done|]. split; [done|].
  unfold recut in Hg. cbn [fst snd] in Hg.
  rewrite take_app_le in Hg by lia. rewrite (drop_app_le (f L)) in Hg by lia.
  pose proof (g_full kN _ _ _ H L) as HL. pose proof (g_full kN _ _ _ H R) as HR. destruct (g_inner H) as [_ Hi]. rewrite <- Hi in HR. destruct (inner s L).
  - replace (S (length (f L) - n)) with (length (g L) - n) in Hg at 2 3 by lia. by rewrite take_app_le, drop_app_le in Hg by lia.
  - assert (HL' : g L = []) by (by destruct (g L)). assert (HR' : g R = []) by (by destruct (g R)). rewrite HL', HR' in Hg |- *. by rewrite !take_nil, !drop_nil in *.
Qed.
(** [good_ true]: the right node has just been made and has no children yet *)
Theorem C53_split s f g p i y : good_ true s f g -> f R = [] -> g P !! p = Some (nid s L) -> (forall r, nid s R ∉ g r) -> 1 <= length (f L) ->
  length (f P) < cap s P -> length (f L) <= cap s R ->
  let m := split_at kN (length (f L)) i in f L !! m = Some y ->
  exists s', split gone kN s i = Ok s' /\ let g' := three (take (S m) (g L)) (take (S p) (g P) ++ nid s R :: drop (S p) (g P)) (drop (S m) (g L)) in
    good s' (three (take m (f L)) (take p (f P) ++ y :: drop p (f P)) (drop (S m) (f L))) g' /\ frame s s' g'.
Proof. apply split_ok. Qed.
(** the right node is left without values and children, and deleted by the caller *)
Theorem C53_merge s f g p d : good s f g -> siblings s g p -> f P !! p = Some d -> 1 + length (f L) + length (f R) <= cap s L ->
  exists s', merge gone kN s = Ok s' /\
    good_ true s' (three (f L ++ d :: f R) (take p (f P) ++ drop (S p) (f P)) []) (three (g L ++ g R) (take (S p) (g P) ++ drop (S (S p)) (g P)) []) /\ frame s s' g.
Proof. apply merge_ok. Qed.
(** a range of values of one node; the children between them are handed to the caller, who deletes them *)
Theorem C53_erase_same_node s f g i n : good s f g -> 1 <= n -> i + n <= length (f L) ->
  exists s', erase_same_node gone kN s L i n = Ok (s', take n (drop (S i) (g L))) /\
    good s' (three (take i (f L) ++ drop (i + n) (f L)) (f P) (f R)) (three (take (S i) (g L) ++ drop (S i + n) (g L)) (g P) (g R)) /\ frame s s' g.
Proof.
  intros H Hn Hi. pose proof (g_full kN _ _ _ H) as Hl. destruct (g_inner H) as [HiP HiR]. pose proof (g_cap H L) as HcL.
  destruct (erase_same_node_ok gone kN s L i n (f L) (g L) (cells s) (lk g)) as (x & xk & yk & zk & E & Hx & Hk & Hf); auto; try apply H; try done.
  { lia. } { apply (good_links kN _ _ _ _ H). }
  eexists. split; [exact E|]. apply (good_intro kN false false s f g); auto.
  - intros r. rewrite upd_at. destruct r; cbn [is three]; try apply H. rewrite app_length, take_length, drop_length. lia.
  - intros r k. rewrite Hx. unfold gone_from, mem. destruct r; cbn [is three]; [done|apply (g_cells H)..].
  - intros r. pose proof (g_cap H r). destruct r; cbn [three]; try lia. rewrite app_length, take_length, drop_length. lia.
  - intros r. pose proof (Hl r) as Hlr. destruct r; cbn [andb is three]; auto. rewrite !app_length, !take_length, !drop_length. destruct (inner s L); lia.
  - intros r k c Hc. apply Hk. revert Hc. unfold kids_gone, lk. destruct r; cbn [three is]; auto.
    rewrite lookup_app_Some, lookup_take_Some, take_length, lookup_drop. intros [[Hc Hlt]|[Hle Hc]].
    + by replace (k <=? i) with true by lia.
    + pose proof (Hl L) as HlL. apply lookup_lt_Some in Hc as Hlt. destruct (inner s L); [|lia]. replace (k <=? i) with false by lia. rewrite <- Hc. f_equal. lia.
Qed.
(** deleting a node destroys each of its values once *)
Theorem C53_delete s r vs : lf s r vs -> exists s', free s r = Ok s' /\ alive s' r = false /\ (forall k, cells s' r k = Raw) /\ (forall r' k, r' <> r -> cells s' r' k = cells s r' k).
Proof. intros H. destruct (free_ok kN s r vs H) as (x & -> & H1 & H2). eexists. split; [reflexivity|]. cbn. rewrite upd_at, is_refl. done. Qed.
(** a root that is a leaf: emplacing, with or without growing the root *)
Theorem C53_emplace_root s i v vs : lf s L vs -> i <= length vs -> length vs < kN -> 1 <= cap s L ->
  exists s' r, emplace_root gone kN s i (Val v) = Ok (s', r, false) /\ lf s' r (take i vs ++ v :: drop i vs) /\
    (r = R -> alive s' L = false /\ forall k, cells s' L k = Raw).
Proof. apply emplace_root_ok. Qed.

(** making room in a full leaf and emplacing: [vals s f], the slots hold the values f.  The values of the two leaves with
    the separator between them are those from before with the new one at its position *)
Definition vals s f := forall r k, cells s r k = at_ (f r) k.
Lemma emplace_vals s f g lone r i v : good_ lone s f g -> inner s r = false -> i <= length (f r) < cap s r ->
  exists s', emplace_value gone kN s r i (Val v) = Ok (s', false) /\ vals s' (fun r' => if is r' r then insert_at i v (f r) else f r').
Proof.
  intros H Hin Hi. destruct (emplace_leaf_ok gone kN s r i v (f r) (good_lf _ _ _ _ r H Hin) Hi) as (s' & E & Hl & _ & _ & Ho). exists s'. split; [done|].
  intros r' k. destruct (is r' r) eqn:Er; [apply is_true in Er; subst r'; apply (l_cells _ _ _ _ Hl)|]. rewrite Ho by (intros ->; by rewrite is_refl in Er). apply (g_cells H).
Qed.
Lemma insert_app_l {A} i (v : A) l1 l2 : i <= length l1 -> insert_at i v (l1 ++ l2) = insert_at i v l1 ++ l2.
Proof. intros Hi. unfold insert_at. rewrite take_app_le, drop_app_le by done. by rewrite <- app_assoc. Qed.
Lemma insert_app_r {A} i (v : A) l1 l2 : insert_at (length l1 + i) v (l1 ++ l2) = l1 ++ insert_at i v l2.
Proof. unfold insert_at. rewrite take_more, drop_more. by rewrite <- app_assoc. Qed.
Theorem C53_left_emplace s f g p d n y i v : good s f g -> inner s L = false -> siblings s g p -> f P !! p = Some d ->
  1 <= n <= length (f R) -> length (f L) + n < cap s L -> f R !! (n - 1) = Some y -> i <= length (f R) ->
  exists s' f', left_emplace gone kN s n i (Val v) = Ok (s', false) /\ vals s' f' /\ f' P = <[p := y]> (f P) /\
    f' L ++ y :: f' R = insert_at (length (f L) + 1 + i) v (f L ++ d :: f R).
Proof.
  intros H Hin Hp Hd Hn Hc Hy Hi. destruct (C53_rebalance_right_to_left s f g p d n y) as (s1 & E & Hf & Hg); auto; [lia|].
  assert (Hin1 : inner s1 = inner s) by apply Hf. assert (Hcap : cap s1 = cap s) by apply Hf. destruct (g_inner H) as [_ HiR].
  assert (Hsame : (f L ++ d :: take (n - 1) (f R)) ++ y :: drop n (f R) = f L ++ d :: f R).
  { rewrite <- app_assoc. cbn [app]. do 2 f_equal. rewrite <- (take_drop (n - 1) (f R)) at 3. f_equal. rewrite (drop_S _ y (n - 1)) by done. do 2 f_equal. lia. }
  unfold left_emplace. rewrite E. cbn [rbind]. pose proof (g_cnt Hg L) as HcL. cbn [three] in HcL. rewrite HcL.
  assert (Hlen : length (f L ++ d :: take (n - 1) (f R)) = length (f L) + n) by (rewrite app_length; cbn [length]; rewrite take_length; lia).
  pose proof (g_cap H R) as HcR. destruct (Nat.leb_spec n i).
  - destruct (emplace_vals s1 _ _ _ R (i - n) v Hg) as (s' & E' & Hv); [congruence|cbn [three]; rewrite drop_length, Hcap; lia|].
    eexists s', _. split; [exact E'|]. split; [exact Hv|]. split; [done|]. cbn [is three]. rewrite <- Hsame.
    replace (length (f L) + 1 + i) with (length (f L ++ d :: take (n - 1) (f R)) + S (i - n)) by lia. rewrite insert_app_r. done.
  - destruct (emplace_vals s1 _ _ _ L (i + length (f L ++ d :: take (n - 1) (f R)) + 1 - n) v Hg) as (s' & E' & Hv); [congruence|cbn [three]; rewrite Hcap, Hlen; lia|].
    eexists s', _. split; [exact E'|]. split; [exact Hv|]. split; [done|]. cbn [is three]. rewrite <- Hsame.
    rewrite Hlen. replace (i + (length (f L) + n) + 1 - n) with (length (f L) + 1 + i) by lia. by rewrite (insert_app_l _ v (f L ++ d :: take (n - 1) (f R))) by (rewrite Hlen; lia).
Qed.
Theorem C53_right_emplace s f g p d n y i v : good s f g -> inner s L = false -> siblings s g p -> f P !! p = Some d ->
  1 <= n <= length (f L) -> length (f R) + n < cap s R -> f L !! (length (f L) - n) = Some y -> i <= length (f L) ->
  exists s' f', right_emplace gone kN s n i (Val v) = Ok (s', false) /\ vals s' f' /\ f' P = <[p := y]> (f P) /\
    f' L ++ y :: f' R = insert_at i v (f L ++ d :: f R).
Proof.
  intros H Hin Hp Hd Hn Hc Hy Hi. destruct (C53_rebalance_left_to_right s f g p d n y) as (s1 & E & Hf & Hg); auto; [lia|].
  assert (Hin1 : inner s1 = inner s) by apply Hf. assert (Hcap : cap s1 = cap s) by apply Hf. destruct (g_inner H) as [_ HiR].
  assert (Hsame : take (length (f L) - n) (f L) ++ y :: drop (S (length (f L) - n)) (f L) ++ d :: f R = f L ++ d :: f R).
  { rewrite app_comm_cons, app_assoc. f_equal. rewrite <- (drop_S _ y) by done. apply take_drop. }
  unfold right_emplace. rewrite E. cbn [rbind]. pose proof (g_cnt Hg L) as HcL. cbn [three] in HcL. rewrite HcL.
  assert (Hlen : length (take (length (f L) - n) (f L)) = length (f L) - n) by (rewrite take_length; lia). rewrite Hlen.
  pose proof (g_cap H L) as HcapL. destruct (Nat.ltb_spec (length (f L) - n) i).
  - destruct (emplace_vals s1 _ _ _ R (i - (length (f L) - n) - 1) v Hg) as (s' & E' & Hv); [congruence|cbn [three]; rewrite app_length, drop_length, Hcap; cbn [length]; lia|].
    eexists s', _. split; [exact E'|]. split; [exact Hv|]. split; [done|]. cbn [is three]. rewrite <- Hsame.
    replace i with (length (take (length (f L) - n) (f L)) + S (i - (length (f L) - n) - 1)) at 2 by lia. rewrite insert_app_r. done.
  - destruct (emplace_vals s1 _ _ _ L i v Hg) as (s' & E' & Hv); [congruence|cbn [three]; rewrite Hcap, Hlen; lia|].
    eexists s', _. split; [exact E'|]. split; [exact Hv|]. split; [done|]. cbn [is three]. rewrite <- Hsame. by rewrite insert_app_l by lia.
Qed.
Theorem C53_split_emplace s f g p i v : good_ true s f g -> inner s L = false -> f R = [] -> g P !! p = Some (nid s L) -> (forall r, nid s R ∉ g r) -> 1 <= length (f L) ->
  length (f P) < cap s P -> length (f L) <= cap s R -> i <= length (f L) ->
  exists s' f' y, split_emplace gone kN s i (Val v) = Ok (s', false) /\ vals s' f' /\ f' P = insert_at p y (f P) /\ f' L ++ y :: f' R = insert_at i v (f L).
Proof.
  intros H Hin HfR Hp Hnew Hn HcP HcR Hi. set (m := split_at kN (length (f L)) i).
  assert (Hm : m < length (f L)) by (unfold m, split_at; lia). pose proof (g_cap H L) as HcL.
  destruct (lookup_lt_is_Some_2 (f L) m Hm) as [y Hy]. destruct (split_ok gone kN s f g p i y) as (s1 & E & Hg & Hf); auto. fold m in Hg.
  assert (Hin1 : inner s1 = inner s) by apply Hf. assert (Hcap : cap s1 = cap s) by apply Hf. destruct (g_inner H) as [_ HiR].
  assert (Hsame : take m (f L) ++ y :: drop (S m) (f L) = f L) by (rewrite <- (drop_S _ y) by done; apply take_drop).
  unfold split_emplace. rewrite E. cbn [rbind]. pose proof (g_cnt Hg L) as HcL1. cbn [three] in HcL1. rewrite HcL1.
  assert (Hlen : length (take m (f L)) = m) by (rewrite take_length; lia). rewrite Hlen.
  destruct (Nat.ltb_spec m i).
  - destruct (emplace_vals s1 _ _ _ R (i - m - 1) v Hg) as (s' & E' & Hv); [congruence|cbn [three]; rewrite drop_length, Hcap; lia|].
    eexists s', _, y. split; [exact E'|]. split; [exact Hv|]. split; [done|]. cbn [is three]. rewrite <- Hsame at 3.
    replace i with (length (take m (f L)) + S (i - m - 1)) at 2 by lia. rewrite insert_app_r. done.
  - destruct (emplace_vals s1 _ _ _ L i v Hg) as (s' & E' & Hv); [congruence|cbn [three]; rewrite Hcap, Hlen; lia|].
    eexists s', _, y. split; [exact E'|]. split; [exact Hv|]. split; [done|]. cbn [is three]. rewrite <- insert_app_l by lia. by rewrite Hsame.
Qed.

(** *** C36: ms.insert( *it ) *)
Lemma get_other s r r' i j vs : r' <> r -> lf s r vs -> i <= length vs < cap s r ->
  emplace_value gone kN s r i (Ref r' j) = (let* v := get s r' j in emplace_value gone kN s r i (Val v)).
Proof.
  intros Hr H Hi. unfold emplace_value. rewrite (l_cnt _ _ _ _ H). replace (length vs <? i) with false by lia.
  destruct (leaf_shift gone kN s r i vs H Hi) as (x & -> & Hx). cbn [rbind value_init].
  assert (Hg : get (with_cells s x) r' j = get s r' j).
  { unfold get. change (alive (with_cells s x)) with (alive s). cbn [cells with_cells]. rewrite Hx. destruct (is r' r) eqn:E; [by apply is_true in E|done]. }
  rewrite Hg. by destruct (get s r' j).
Qed.
Lemma get_good lone s f g r k : good_ lone s f g -> get s r k = match f r !! k with Some v => Ok v | None => UB end.
Proof. intros H. unfold get. rewrite (g_alive H), (g_cells H). unfold mem, at_. by destruct (f r !! k). Qed.

Context {K : Type} (key : V -> K) (lt : K -> K -> bool).
(* insert_multi (2423-2435) of the element at j, the root being a leaf: upper_bound, then internal_emplace with a reference
   to the element; the position is the one that upper_bound finds (C31, C35) *)
Definition insert_own s vs j : res (st * role * bool) :=
  match vs !! j with Some v => emplace_root gone kN s (upper key lt (key v) vs) (Ref L j) | None => UB end.
(** while there is room in the leaf, the copy is right *)
Theorem C36_insert_own_partial s vs j v : swo lt -> sorted key lt true vs -> lf s L vs -> length vs < cap s L -> vs !! j = Some v ->
  exists s', insert_own s vs j = Ok (s', L, false) /\ lf s' L (insert_at (upper key lt (key v) vs) v vs).
Proof.
  intros Hlt Hs H Hc Hj. unfold insert_own. rewrite Hj. pose proof (upper_le key lt (key v) vs) as Hu.
  assert (Hju : j < upper key lt (key v) vs).
  { pose proof (upper_lookup key lt true Hlt (key v) vs j v Hs Hj) as E. rewrite (swo_irrefl _ Hlt) in E. destruct (Nat.ltb_spec j (upper key lt (key v) vs)); [done|discriminate]. }
  rewrite (emplace_root_ref_room gone kN s _ j vs v) by auto. unfold emplace_root. rewrite (l_cnt _ _ _ _ H). replace (length vs =? cap s L) with false by lia.
  destruct (emplace_leaf_ok gone kN s L (upper key lt (key v) vs) v vs H) as (s' & -> & Hl & _); [lia|]. cbn [rbind]. by exists s'.
Qed.
(** when the root has to grow, the element has been destroyed and its memory given back before it is copied: for every
    element of every such container *)
Theorem C36_growing_root_reads_freed_memory s vs j : lf s L vs -> length vs = cap s L -> cap s L < kN -> j < length vs -> insert_own s vs j = UB.
Proof.
  intros H Hc Hk Hj. unfold insert_own. destruct (lookup_lt_is_Some_2 vs j Hj) as [v ->]. apply (emplace_root_ref_grow gone kN s _ j vs); auto. apply upper_le.
Qed.
(** when a full leaf is split, an element at or after the split has been moved away and destroyed before it is copied *)
Theorem C36_split_destroys_the_argument s f g p i j : good_ true s f g -> inner s L = false -> f R = [] -> g P !! p = Some (nid s L) -> (forall r, nid s R ∉ g r) ->
  length (f P) < cap s P -> length (f L) <= cap s R -> j < i <= length (f L) ->
  let m := split_at kN (length (f L)) i in
  (m <= j -> split_emplace gone kN s i (Ref L j) = UB) /\
  (forall v, j < m -> f L !! j = Some v -> split_emplace gone kN s i (Ref L j) = split_emplace gone kN s i (Val v)).
Proof.
  intros H Hin HfR Hp Hnew HcP HcR Hj m.
  assert (Hm : m < length (f L)) by (unfold m, split_at; lia). pose proof (g_cap H L) as HcL.
  destruct (lookup_lt_is_Some_2 (f L) m Hm) as [y Hy].
  destruct (split_ok gone kN s f g p i y) as (s' & E & Hg & Hf); auto; [lia|]. fold m in Hg.
  assert (Hin' : inner s' L = false) by (destruct Hf as (_ & -> & _); done). destruct (g_inner Hg) as [_ HiR].
  assert (HlL : lf s' L (take m (f L))) by exact (good_lf _ _ _ _ L Hg Hin').
  assert (HlR : lf s' R (drop (S m) (f L))) by (apply (good_lf _ _ _ _ R Hg); congruence).
  assert (Hcap : cap s' = cap s) by apply Hf.
  assert (HtL : length (take m (f L)) = m) by (rewrite take_length; lia).
  assert (HtR : length (drop (S m) (f L)) = length (f L) - S m) by (rewrite drop_length; lia).
  unfold split_emplace. rewrite E. cbn [rbind]. rewrite (l_cnt _ _ _ _ HlL), HtL.
  destruct (Nat.ltb_spec m i).
  - rewrite (get_other s' R L (i - m - 1) j (drop (S m) (f L))); [|done|done|rewrite HtR, Hcap; lia]. rewrite (get_good _ _ _ _ _ _ Hg). cbn [three].
    split; [intros Hle|intros v Hlt Hv].
    + by rewrite lookup_take_ge.
    + by rewrite lookup_take, Hv by done.
  - split; [lia|]. intros v Hlt Hv. rewrite (emplace_leaf_ref gone kN s' L i j (take m (f L))); [|done|rewrite HtL, Hcap; lia|lia].
    replace (j =? i) with false by lia. replace (j <? i) with true by lia. by rewrite lookup_take, Hv by done.
Qed.
(** when a full leaf gives n values to its left sibling and the new value goes to the sibling as well, the value that is
    inserted is the one n places further, or a destroyed one *)
Theorem C36_rebalancing_inserts_another_element s f g p d y n i j : good s f g -> inner s L = false -> siblings s g p -> f P !! p = Some d ->
  1 <= n <= length (f R) -> length (f L) + n < cap s L -> f R !! (n - 1) = Some y -> i < n ->
  left_emplace gone kN s n i (Ref R j) = match f R !! (j + n) with Some w => left_emplace gone kN s n i (Val w) | None => UB end.
Proof.
  intros H Hin Hp Hd Hn Hc Hy Hi. destruct (C53_rebalance_right_to_left s f g p d n y) as (s' & E & Hf & Hg); auto; [lia|].
  assert (Hin' : inner s' L = false) by (destruct Hf as (_ & -> & _); done).
  assert (HlL : lf s' L (f L ++ d :: take (n - 1) (f R))) by exact (good_lf _ _ _ _ L Hg Hin').
  assert (Hcap : cap s' = cap s) by apply Hf.
  assert (Hlen : length (f L ++ d :: take (n - 1) (f R)) = length (f L) + n) by (rewrite app_length; cbn [length]; rewrite take_length; lia).
  unfold left_emplace. rewrite E. cbn [rbind]. replace (n <=? i) with false by lia. rewrite (l_cnt _ _ _ _ HlL), Hlen.
  rewrite (get_other s' L R _ j (f L ++ d :: take (n - 1) (f R))); [|done|exact HlL|rewrite Hlen, Hcap; lia]. rewrite (get_good _ _ _ _ _ _ Hg). cbn [three]. rewrite lookup_drop, Nat.add_comm. by destruct (f R !! (j + n)).
Qed.
End PropsSlots.

(** *** instances *)
Definition state {V} (f : role -> list V) (g : role -> list nat) (cap : role -> nat) (inner : role -> bool) (nid : role -> nat) : st V nat :=
  mkSt (fun r k => at_ (f r) k) (fun r k => g r !! k)
       (fun c => if bool_decide (c ∈ g L) then L else if bool_decide (c ∈ g R) then R else P)
       (fun c => match list_find (eq c) (g L) with Some (k, _) => k | None => match list_find (eq c) (g R) with Some (k, _) => k | None =>
                   match list_find (eq c) (g P) with Some (k, _) => k | None => 0 end end end)
       (fun r => length (f r)) cap inner (fun _ => true) nid.
Definition values (s : st nat nat) (r : role) : list (cell nat) := map (cells s r) (seq 0 (cnt s r)).

(** kNodeValues = 8; the parent holds 9; its children are the leaves 100 (1, 2) and 101 (10 ... 17) *)
Definition fx : role -> list nat := three [1; 2] [9] [10; 11; 12; 13; 14; 15; 16; 17].
Definition gx : role -> list nat := three [] [100; 101] [].
Definition sx : st nat nat := state fx gx (fun _ => 8) (three false true false) (three 100 99 101).
Lemma sx_good : good_ 8 false sx fx gx /\ siblings sx gx 0.
Proof.
  split; [|by split]. constructor; try (intros []; vm_compute; lia || reflexivity); try done; try (intros r; destruct r; vm_compute; lia || reflexivity).
  intros [] k c Hk; cbn in Hk; try (by destruct k). destruct k as [|[|k]]; cbn in Hk; [injection Hk as <-; vm_compute; auto..|]. by destruct k.
Qed.
(** inserting a copy of 11, the element 1 of the right leaf, moves 3 values to the left one and inserts 14 after 11, before
    the separator 12: the container is no longer sorted *)
Theorem C36_insert_own_rebalancing_refuted : exists s', left_emplace 0 8 sx 3 2 (Ref R 1) = Ok (s', false) /\
  values s' L = map Live [1; 2; 9; 10; 11; 14] /\ values s' P = [Live 12] /\ values s' R = map Live [13; 14; 15; 16; 17].
Proof. eexists. split; [vm_compute; reflexivity|]. vm_compute. auto. Qed.
Print Assumptions C36_insert_own_rebalancing_refuted.
(** a container with one element, and its copy *)
Definition s1 : st nat nat := state (three [7] [] []) (three [] [] []) (fun _ => 1) (fun _ => false) (three 100 99 101).
Lemma s1_leaf : lf 8 s1 L [7]. Proof. constructor; cbn; auto; lia. Qed.
Theorem C36_insert_own_refuted : exists (s : st nat nat) vs j v, lf 8 s L vs /\ vs !! j = Some v /\ sorted (fun x => x) Nat.ltb true vs /\
  insert_own 0 8 (fun x => x) Nat.ltb s vs j = UB.
Proof. exists s1, [7], 0, 7. split; [apply s1_leaf|]. split; [done|]. split; [repeat constructor|]. vm_compute. reflexivity. Qed.
Print Assumptions C36_insert_own_refuted.

Example C36_room : exists s', insert_own 0 8 (fun x => x) Nat.ltb (state (three [3; 5; 5; 6] [] []) (three [] [] []) (fun _ => 8) (fun _ => false) (three 100 99 101)) [3; 5; 5; 6] 1 = Ok (s', L, false) /\
  values s' L = map Live [3; 5; 5; 5; 6].
Proof. eexists. split; vm_compute; reflexivity. Qed.
Example C36_room_meets : lf 8 (state (three [3; 5; 5; 6] [] []) (three [] [] []) (fun _ => 8) (fun _ => false) (three 100 99 101)) L [3; 5; 5; 6] /\ sorted (fun x => x) Nat.ltb true [3; 5; 5; 6].
Proof. split; [constructor; cbn; auto; lia|]. repeat (constructor; auto). Qed.
(** a full leaf 100 of 8 under a parent, a new leaf 102 *)
Definition fy : role -> list nat := three [10; 11; 12; 13; 14; 15; 16; 17] [9] [].
Definition gy : role -> list nat := three [] [101; 100] [].
Definition sy : st nat nat := state fy gy (fun _ => 8) (three false true false) (three 100 99 102).
Lemma sy_good : good_ 8 true sy fy gy /\ gy P !! 1 = Some (nid sy L) /\ forall r, nid sy R ∉ gy r.
Proof.
  split; [|split; [done|]].
  - constructor; try (intros []; vm_compute; lia || reflexivity); try done; try (intros r; destruct r; vm_compute; lia || reflexivity).
    intros [] k c Hk; cbn in Hk; try (by destruct k). destruct k as [|[|k]]; cbn in Hk; [injection Hk as <-; vm_compute; auto..|]. by destruct k.
  - intros [] Hin; cbn in Hin; repeat (apply elem_of_cons in Hin as [Hin|Hin]; [discriminate|]); by apply elem_of_nil in Hin.
Qed.
Example C36_split_last : split_emplace 0 8 sy 8 (Ref L 7) = UB /\ exists s', split_emplace 0 8 sy 2 (Ref L 1) = Ok (s', false) /\ values s' L = map Live [10; 11; 11; 12] /\ values s' R = map Live [14; 15; 16; 17].
Proof. split; [vm_compute; reflexivity|]. eexists. split; [vm_compute; reflexivity|]. vm_compute. auto. Qed.
Example C53_split_runs : exists s', split 0 8 sy 4 = Ok s' /\ values s' L = map Live [10; 11; 12] /\ values s' P = map Live [9; 13] /\ values s' R = map Live [14; 15; 16; 17].
Proof. eexists. split; [vm_compute; reflexivity|]. vm_compute. auto. Qed.
Example C53_rebalance_runs : exists s', rebalance_right_to_left 0 8 sx 3 = Ok s' /\ values s' L = map Live [1; 2; 9; 10; 11] /\ values s' P = [Live 12] /\ values s' R = map Live [13; 14; 15; 16; 17].
Proof. eexists. split; [vm_compute; reflexivity|]. vm_compute. auto. Qed.
(** internal nodes 100 and 101 with children, merged *)
Definition fz : role -> list nat := three [1; 2] [9] [10; 11].
Definition gz : role -> list nat := three [1; 2; 3] [100; 101] [4; 5; 6].
Definition sz : st nat nat := state fz gz (fun _ => 8) (fun _ => true) (three 100 99 101).
Lemma sz_good : good_ 8 false sz fz gz /\ siblings sz gz 0.
Proof.
  split; [|by split]. constructor; try (intros []; vm_compute; lia || reflexivity); try done; try (intros r; destruct r; vm_compute; lia || reflexivity).
  intros [] k c Hk; cbn in Hk; destruct k as [|[|[|k]]]; cbn in Hk; try (by destruct k); try (injection Hk as <-; vm_compute; auto; done); done.
Qed.
Example C53_merge_runs : exists s', merge 0 8 sz = Ok s' /\ values s' L = map Live [1; 2; 9; 10; 11] /\ values s' P = [] /\ map (kids s' L) (seq 0 6) = map Some [1; 2; 3; 4; 5; 6] /\
  map (pos s') [1; 2; 3; 4; 5; 6] = [0; 1; 2; 3; 4; 5] /\ map (par s') [4; 5; 6] = [L; L; L].
Proof. eexists. split; [vm_compute; reflexivity|]. vm_compute. auto. Qed.
Example C53_erase_runs : exists s', erase_same_node 0 8 sz L 0 1 = Ok (s', [2]) /\ values s' L = [Live 2] /\ map (kids s' L) (seq 0 2) = map Some [1; 3] /\ pos s' 3 = 1.
Proof. eexists. split; [vm_compute; reflexivity|]. vm_compute. auto. Qed.

Print Assumptions C53_emplace.
Print Assumptions C53_rebalance_right_to_left.
Print Assumptions C53_rebalance_left_to_right.
Print Assumptions C53_split.
Print Assumptions C53_merge.
Print Assumptions C53_erase_same_node.
Print Assumptions C53_delete.
Print Assumptions C53_emplace_root.
Print Assumptions C36_insert_own_partial.
Print Assumptions C36_growing_root_reads_freed_memory.
Print Assumptions C36_split_destroys_the_argument.
Print Assumptions C36_rebalancing_inserts_another_element.
Print Assumptions C53_left_emplace.
Print Assumptions C53_right_emplace.
Print Assumptions C53_split_emplace.
(** the hypotheses of C53_left_emplace and C53_split_emplace are met by sx and sy; of C53_right_emplace by this pair *)
Definition fw : role -> list nat := three [1; 2; 3; 4; 5; 6; 7; 8] [9] [10; 11].
Definition sw : st nat nat := state fw gx (fun _ => 8) (three false true false) (three 100 99 101).
Example C53_right_emplace_meets : good_ 8 false sw fw gx /\ siblings sw gx 0 /\ inner sw L = false /\ fw P !! 0 = Some 9 /\ fw L !! (8 - 3) = Some 6 /\ inner sx L = false /\ inner sy L = false.
Proof.
  split; [|by repeat split]. constructor; try (intros []; vm_compute; lia || reflexivity); try done; try (intros r; destruct r; vm_compute; lia || reflexivity).
  intros [] k c Hk; cbn in Hk; try (by destruct k). destruct k as [|[|k]]; cbn in Hk; [injection Hk as <-; vm_compute; auto..|]. by destruct k.
Qed.
