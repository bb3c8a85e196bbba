(** What the functions of a node do to the values and children of the node, its right sibling and their parent. *)
From stdpp Require Import list.
From Coq Require Import Arith Lia ZifyBool ZifyNat.
From Verif.Common Require Import Res.
From Verif.BTree Require Import Slots SlotsFacts.
Local Open Scope nat_scope.
Local Open Scope res_scope.

Section Ops.
Context {V C : Type} `{EqDecision C} (gone : V) (kN : nat).
Notation st := (st V C).
Notation cell := (cell V).
Implicit Types (s : st) (a b r : role) (i j k n p : nat) (v d : V) (c : C) (f : role -> list V) (g : role -> list C).

(** the slot k of a node that holds the values l *)
Definition at_ (l : list V) k : cell := match l !! k with Some v => Live v | None => Raw end.
Definition mem f : role -> nat -> cell := fun r k => at_ (f r) k.
Definition three {A} (x y z : A) : role -> A := fun r => match r with L => x | P => y | R => z end.

(** the three nodes hold the values f, in the slots below count() and nowhere else, and the children g, whose parent and
    position fields are right; [lone]: R has no values and no children yet, or no more *)
Record good_ (lone : bool) s f g : Prop := Good {
  g_cnt : forall r, cnt s r = length (f r);
  g_cells : eqm (cells s) (mem f);
  g_alive : forall r, alive s r = true;
  g_cap : forall r, length (f r) <= cap s r <= kN;
  g_inner : inner s P = true /\ inner s L = inner s R;
  g_len : forall r, length (g r) = if lone && is r R then length (f r) else if inner s r then S (length (f r)) else 0;
  g_kids : forall r k c, g r !! k = Some c -> kids s r k = Some c /\ pos s c = k /\ par s c = r }.
Global Arguments g_cnt {lone s f g}. Global Arguments g_cells {lone s f g}. Global Arguments g_alive {lone s f g}. Global Arguments g_cap {lone s f g}.
Global Arguments g_inner {lone s f g}. Global Arguments g_len {lone s f g}. Global Arguments g_kids {lone s f g}.
Notation good := (good_ false).
Lemma g_full s f g : good s f g -> forall r, length (g r) = if inner s r then S (length (f r)) else 0. Proof. intros H r. exact (g_len H r). Qed.
(** L is child p of P, R the next one *)
Definition siblings s g p := g P !! p = Some (nid s L) /\ g P !! S p = Some (nid s R).
(** what a function of the three nodes does not change *)
Definition frame s s' g := cap s' = cap s /\ inner s' = inner s /\ alive s' = alive s /\ nid s' = nid s /\
  forall c, (forall r, c ∉ g r) -> par s' c = par s c /\ pos s' c = pos s c.

Lemma at_app l1 l2 k : at_ (l1 ++ l2) k = if k <? length l1 then at_ l1 k else at_ l2 (k - length l1).
Proof. unfold at_. destruct (Nat.ltb_spec k (length l1)); [by rewrite lookup_app_l|by rewrite lookup_app_r by lia]. Qed.
Lemma at_cons d l k : at_ (d :: l) k = if k =? 0 then Live d else at_ l (k - 1).
Proof. unfold at_. destruct k; cbn; [done|]. by rewrite Nat.sub_0_r. Qed.
Lemma at_nil k : at_ [] k = Raw. Proof. done. Qed.
Lemma at_take n l k : at_ (take n l) k = if k <? n then at_ l k else Raw.
Proof. unfold at_. destruct (Nat.ltb_spec k n); [by rewrite lookup_take|by rewrite lookup_take_ge]. Qed.
Lemma at_drop n l k : at_ (drop n l) k = at_ l (n + k). Proof. unfold at_. by rewrite lookup_drop. Qed.
Lemma at_insert p x l k : p < length l -> at_ (<[p:=x]> l) k = if k =? p then Live x else at_ l k.
Proof. intros. unfold at_. destruct (Nat.eqb_spec k p) as [->|]; [by rewrite list_lookup_insert|by rewrite list_lookup_insert_ne by auto]. Qed.
Lemma at_ge l k : length l <= k -> at_ l k = Raw. Proof. intros. unfold at_. by rewrite lookup_ge_None_2. Qed.
Lemma at_lt l k : k < length l -> raw (at_ l k) = false.
Proof. intros H. unfold at_. by destruct (lookup_lt_is_Some_2 l k H) as [y ->]. Qed.
Lemma at_some l k v : l !! k = Some v -> at_ l k = Live v. Proof. unfold at_. by intros ->. Qed.

(* a slot after some moves *)
Ltac cmp := repeat match goal with
  | |- context [?a =? ?b] => destruct (Nat.eqb_spec a b); try lia
  | |- context [?a <? ?b] => destruct (Nat.ltb_spec a b); try lia
  | |- context [?a <=? ?b] => destruct (Nat.leb_spec a b); try lia
  end; cbn [andb orb negb].
Ltac at_done := first
  [ reflexivity | lia
  | apply at_lt; lia
  | apply at_ge; lia
  | symmetry; apply at_ge; lia
  | rewrite !at_ge by lia; reflexivity
  | match goal with |- at_ ?l ?x = at_ ?l ?y => replace y with x by lia; reflexivity end
  | match goal with H : ?l !! ?k = Some _ |- at_ ?l ?e = _ => replace e with k by lia; rewrite (at_some _ _ _ H); reflexivity end
  | match goal with H : ?l !! ?k = Some _ |- _ = at_ ?l ?e => replace e with k by lia; rewrite (at_some _ _ _ H); reflexivity end ].
Ltac slot := unfold mv, ds, inr; unfold mem; cbn [is andb three];
  repeat first [rewrite at_take | rewrite at_drop | rewrite at_app | rewrite at_cons]; rewrite ?at_nil, ?take_length;
  repeat match goal with |- context [at_ (<[?p:=?x]> ?l) ?k] => rewrite (at_insert p x l k) by lia end; cmp; at_done.

(** ** one node *)
Definition lives s r vs := forall k, cells s r k = at_ vs k.
Lemma emplace_shift s r i vs m : eqm (cells s) m -> (forall k, m r k = at_ vs k) -> alive s r = true -> i < length vs < cap s r ->
  step s (let* s := move_init gone s r (length vs - 1) r (length vs) in
          let* s := move_back gone (length vs - 1 - i) s r i r (i + 1) in
          destroy s r i)
    (fun r' k => if is r' r then (if k <? i then at_ vs k else if k =? i then Raw else at_ vs (k - 1)) else m r' k).
Proof.
  intros Hm Hv Ha Hi.
  eapply step_bind; [apply (move_init_ok gone s r (length vs - 1) r (length vs) m); auto; [rewrite Hv; apply at_lt; lia|rewrite Hv; apply at_ge; lia|lia]|].
  intros x Hx. eapply step_bind.
  { apply (move_back_ok gone (length vs - 1 - i) (with_cells s x) r i r (i + 1) _ Hx); auto; [right; lia| |]; intros k Hk; unfold mv, inr; rewrite is_refl, !Hv; cbn [andb]; cmp; at_done. }
  intros y Hy. eapply step_eq; [apply (destroy_ok (with_cells s y) r i _ Hy); auto; unfold mv, inr; rewrite is_refl, !Hv; cbn [andb]; cmp; at_done|].
  intros r' k. unfold ds, mv, inr. destruct (is r' r) eqn:E; [apply is_true in E; subst r'|by cbn [andb]].
  rewrite ?is_refl, !Hv. cbn [andb]. cmp; at_done.
Qed.

(* the children of a node after emplace_value at i: those from i + 1 on have moved *)
Definition kids_shifted s r i (ks : list C) (x : role -> nat -> option C) (y : C -> role) (z : C -> nat) :=
  (forall r' k, r' <> r -> x r' k = kids s r' k) /\ (forall c, y c = par s c) /\
  (forall k c, k <= i -> ks !! k = Some c -> x r k = Some c /\ z c = k) /\
  (forall k c, i < k -> ks !! k = Some c -> x r (S k) = Some c /\ z c = S k) /\
  (forall c, c ∉ ks -> z c = pos s c).
Lemma emplace_kids s r i ks n : alive s r = true -> (forall k c, ks !! k = Some c -> kids s r k = Some c /\ pos s c = k) ->
  length ks = S n -> i < n < kN -> exists x y z,
  (let* s := kids_back kN false false (n - i) s r (i + 1) r (i + 2) in Ok (clear_child s r (i + 1))) = Ok (with_links s x y z) /\ kids_shifted s r i ks x y z.
Proof.
  intros Ha Hk Hl Hi.
  assert (Hs : forall k, k <= n -> exists c, ks !! k = Some c /\ kids s r k = Some c /\ pos s c = k).
  { intros k Hk'. destruct (lookup_lt_is_Some_2 ks k) as [c Hc]; [lia|]. exists c. split; [done|]. by apply Hk. }
  destruct (kids_back_ok kN false false (n - i) s r (i + 1) r (i + 2) (kids s)) as (x & y & z & -> & Hx & Hm & Ho); auto; try lia.
  { intros ? ?; reflexivity. }
  { intros k Hk'. destruct (Hs k) as (c & _ & -> & _); [lia|done]. }
  { intros k k' H1 H2 E. destruct (Hs k) as (c & _ & E1 & <-); [lia|]. destruct (Hs k') as (c' & _ & E2 & <-); [lia|]. congruence. }
  cbn [rbind]. unfold clear_child. cbn [kids par pos with_links]. eexists _, y, z. split; [unfold with_links; cbn; reflexivity|].
  split; [|split; [|split; [|split]]].
  - intros r' k Hr. rewrite upd_at. destruct (is r' r) eqn:E; [by apply is_true in E|]. rewrite Hx. unfold km. by rewrite E.
  - intros c. destruct (decide (c ∈ drop (i + 1) ks)) as [Hin|Hn].
    + apply elem_of_list_lookup in Hin as (k & Hc). rewrite lookup_drop in Hc. pose proof (lookup_lt_Some _ _ _ Hc). apply (Hm (i + 1 + k) c); [lia|by apply Hk].
    + apply Ho. intros k H1 H2. apply Hn. apply elem_of_list_lookup. destruct (Hs k) as (c' & E1 & E2 & E3); [lia|].
      exists (k - (i + 1)). rewrite lookup_drop. replace (i + 1 + (k - (i + 1))) with k by lia. congruence.
  - intros k c Hki Hc. rewrite upd_at, is_refl, updn_at, Hx. destruct (Hk k c Hc) as [H1 H2].
    unfold km, inr. rewrite is_refl. cbn [andb]. cmp. split; [done|].
    destruct (Ho c) as [-> _]; [|done]. intros k' H3 H4. destruct (Hs k') as (c' & E1 & E2 & E3); [lia|]. assert (c' = c) as -> by congruence. lia.
  - intros k c Hki Hc. rewrite upd_at, is_refl, updn_at, Hx. destruct (Hk k c Hc) as [H1 H2]. pose proof (lookup_lt_Some _ _ _ Hc).
    unfold km, inr. rewrite is_refl. cbn [andb]. cmp. replace (i + 1 + (S k - (i + 2))) with k by lia. split; [done|].
    destruct (Hm k c) as [-> _]; [lia|done|lia].
  - intros c Hc. apply Ho. intros k H1 H2. destruct (Hs k) as (c' & E1 & E2 & E3); [lia|]. apply Hc. apply elem_of_list_lookup. exists k. congruence.
Qed.
Lemma kids_not_shifted s r i (ks : list C) : (forall k c, ks !! k = Some c -> kids s r k = Some c /\ pos s c = k) -> length ks <= S i -> kids_shifted s r i ks (kids s) (par s) (pos s).
Proof.
  intros Hk Hl. split; [done|]. split; [done|]. split; [intros; by apply Hk|]. split; [|done].
  intros k c Hki Hc. apply lookup_lt_Some in Hc. lia.
Qed.
(* the slots of r hold vs and one more value at i; the others are m *)
Definition inserted r i vs v m : role -> nat -> cell := fun r' k => if is r' r then at_ (take i vs ++ v :: drop i vs) k else m r' k.
Lemma emplace_value_ok s r i arg v vs ks m m1 : eqm (cells s) m -> (forall k, m r k = at_ vs k) -> alive s r = true -> cnt s r = length vs ->
  i <= length vs < cap s r -> cap s r <= kN ->
  (forall k c, ks !! k = Some c -> kids s r k = Some c /\ pos s c = k) -> length ks = (if inner s r then S (length vs) else 0) ->
  match arg with
  | Val w => w = v /\ m1 = m
  | Ref r' k => r' <> r /\ alive s r' = true /\ m r' k = Live v /\ m1 = m
  | From r' k => r' <> r /\ alive s r' = true /\ m r' k = Live v /\ m1 = (fun r0 k0 => if is r0 r' && (k0 =? k) then Live gone else m r0 k0)
  | Boom => False
  end ->
  exists x xk y z, emplace_value gone kN s r i arg = Ok (mkSt x xk y z (upd (cnt s) r (S (length vs))) (cap s) (inner s) (alive s) (nid s), false) /\
    eqm x (inserted r i vs v m1) /\ kids_shifted s r i ks xk y z.
Proof.
  intros Hm Hv Ha Hc Hi HkN Hks Hlk Harg. unfold emplace_value. rewrite Hc. replace (length vs <? i) with false by lia.
  set (m0 := fun r' k => if is r' r then (if k <? i then at_ vs k else if k =? i then Raw else at_ vs (k - 1)) else m r' k).
  assert (Hsh : step s (if i <? length vs then let* s := move_init gone s r (length vs - 1) r (length vs) in let* s := move_back gone (length vs - 1 - i) s r i r (i + 1) in destroy s r i else Ok s) m0).
  { destruct (Nat.ltb_spec i (length vs)); [apply emplace_shift; auto; lia|]. apply step_ret. intros r' k. rewrite Hm. unfold m0.
    destruct (is r' r) eqn:E; [apply is_true in E; subst|done]. rewrite Hv. cmp; try at_done. }
  destruct Hsh as (x0 & -> & Hx0). cbn [rbind].
  assert (Hin : exists x, value_init gone (with_cells s x0) r i arg = Ok (Some (with_cells s x)) /\ eqm x (inserted r i vs v m1)).
  { assert (Hraw : x0 r i = Raw). { rewrite Hx0. unfold m0. rewrite is_refl. cmp; done. }
    assert (Hcon : construct (with_cells s x0) r i v = Ok (with_cells s (cells (set_cell (with_cells s x0) r i (Live v))))).
    { rewrite construct_ok; cbn; auto; lia. }
    assert (Hcell : eqm (cells (set_cell (with_cells s x0) r i (Live v))) (inserted r i vs v m)).
    { intros r' k. rewrite set_cell_at. cbn [cells with_cells]. rewrite Hx0. unfold inserted, m0. destruct (is r' r) eqn:E; [|by cbn [andb]].
      cbn [andb]. rewrite at_app, at_cons, at_take, at_drop. rewrite take_length. cmp; at_done. }
    destruct arg as [w|r' k|r' k|]; cbn [value_init].
    - destruct Harg as [-> ->]. rewrite Hcon. cbn [rmap rbind]. by eexists.
    - destruct Harg as (Hr & Ha' & Hmv & ->). unfold move_init. unfold get at 1. cbn [alive with_cells cells]. rewrite Ha', Hx0. unfold m0 at 1.
      destruct (is r' r) eqn:E; [by apply is_true in E|]. rewrite Hmv. cbn [rbind]. rewrite Hcon. cbn [rmap rbind]. eexists. split; [reflexivity|].
      intros r2 k2. pose proof (set_cell_at (with_cells s (cells (set_cell (with_cells s x0) r i (Live v)))) r' k (Live gone) r2 k2) as E2.
      etransitivity; [exact E2|]. cbn [cells with_cells]. unfold inserted. destruct (is r2 r) eqn:E3.
      + apply is_true in E3; subst r2. destruct (is r r') eqn:E4; [apply is_true in E4; by subst|]. cbn [andb].
        etransitivity; [apply Hcell|]. unfold inserted. by rewrite is_refl.
      + destruct (is r2 r' && (k2 =? k)) eqn:E4; [done|]. etransitivity; [apply Hcell|]. unfold inserted. by rewrite E3.
    - destruct Harg as (Hr & Ha' & Hmv & ->). unfold get at 1. cbn [alive with_cells cells]. rewrite Ha', Hx0. unfold m0 at 1.
      destruct (is r' r) eqn:E; [by apply is_true in E|]. rewrite Hmv. cbn [rbind]. rewrite Hcon. cbn [rmap rbind]. by eexists.
    - done. }
  destruct Hin as (x & -> & Hx). cbn [rbind]. cbn [inner cnt set_cnt with_cells]. rewrite upd_at, is_refl.
  replace (length vs + 1) with (S (length vs)) by lia.
  destruct (inner s r && (i + 1 <? S (length vs))) eqn:E.
  - apply andb_true_iff in E as [E1 E2]. rewrite E1 in Hlk.
    destruct (emplace_kids (set_cnt (with_cells s x) r (S (length vs))) r i ks (length vs)) as (xk & y & z & H1 & H2); auto; [lia|].
    destruct (kids_back kN false false (length vs - i) (set_cnt (with_cells s x) r (S (length vs))) r (i + 1) r (i + 2)) eqn:E3; cbn [rbind] in H1 |- *; try discriminate.
    assert (H3 : clear_child a r (i + 1) = with_links (set_cnt (with_cells s x) r (S (length vs))) xk y z) by congruence. rewrite H3.
    exists x, xk, y, z. split; [reflexivity|]. split; [done|]. exact H2.
  - exists x, (kids s), (par s), (pos s). split; [reflexivity|]. split; [done|]. apply kids_not_shifted; [done|].
    destruct (inner s r); cbn [andb] in E; lia.
Qed.

(** ** children: where each child is, and that its fields say so *)
Implicit Types (G : role -> nat -> option C).
Definition klinks s G := forall r k c, G r k = Some c -> kids s r k = Some c /\ pos s c = k /\ par s c = r.
Definition links s G (o : res st) G' := exists x y z, o = Ok (with_links s x y z) /\ klinks (with_links s x y z) G' /\
  (forall c, (forall r k, G r k <> Some c) -> z c = pos s c /\ y c = par s c).
Definition keeps G G' := forall r k c, G' r k = Some c -> exists r' k', G r' k' = Some c.
Lemma links_ret s G : klinks s G -> links s G (Ok s) G.
Proof. intros H. exists (kids s), (par s), (pos s). split; [by destruct s|]. split; [exact H|done]. Qed.
Lemma links_eq s G o G1 G2 : links s G o G1 -> (forall r k, G1 r k = G2 r k) -> links s G o G2.
Proof. intros (x & y & z & E & H1 & H2) H. exists x, y, z. split; [done|]. split; [|done]. intros r k c. rewrite <- H. apply H1. Qed.
Lemma links_bind s G o G1 (h : st -> res st) G2 : links s G o G1 -> keeps G G1 ->
  (forall x y z, klinks (with_links s x y z) G1 -> links (with_links s x y z) G1 (h (with_links s x y z)) G2) -> links s G (rbind o h) G2.
Proof.
  intros (x & y & z & -> & H1 & H2) Hk Hh. cbn [rbind]. destruct (Hh x y z H1) as (x' & y' & z' & E & H3 & H4).
  exists x', y', z'. split; [exact E|]. split; [exact H3|]. intros c Hc. destruct (H4 c) as [E1 E2].
  { intros r k E1. destruct (Hk r k c E1) as (r' & k' & E2). by apply (Hc r' k'). }
  rewrite E1, E2. by apply H2.
Qed.
Lemma km_keeps a i b j n G : keeps G (km true a i b j n G).
Proof. intros r k c. unfold km. destruct (is r b && inr k j n); [eauto|]. destruct (true && (is r a && inr k i n)); [done|eauto]. Qed.
Lemma lstep_links (init clr : bool) s a i b j n G o : klinks s G -> (init = false -> a = b) -> (forall k, i <= k < i + n -> G a k <> None) ->
  lstep init clr s a i b j n (kids s) o -> links s G o (km true a i b j n G).
Proof.
  intros HG Hab Hs (x & y & z & -> & Hx & Hm & Ho). exists x, y, z. split; [done|].
  assert (HGa : forall k c, i <= k < i + n -> kids s a k = Some c -> G a k = Some c).
  { intros k c Hk Hc. destruct (G a k) as [c'|] eqn:E; [|by apply (Hs k) in E]. destruct (HG a k c' E) as [E1 _]. congruence. }
  split.
  - intros r k c. unfold km. destruct (is r b && inr k j n) eqn:E.
    + apply andb_true_iff in E as [E1 E2]. apply is_true in E1. subst r. unfold inr in E2. intros Hc.
      destruct (HG _ _ _ Hc) as (H1 & H2 & H3). destruct (Hm (i + (k - j)) c) as [H4 H5]; [lia|done|]. cbn [kids pos par with_links].
      rewrite Hx. unfold km, inr. rewrite is_refl. cbn [andb]. rewrite E2. split; [done|]. split; [lia|].
      rewrite H5. destruct init; [done|]. rewrite H3. auto.
    + cbn [andb]. destruct (is r a && inr k i n) eqn:E2; [done|]. intros Hc. destruct (HG _ _ _ Hc) as (H1 & H2 & H3). cbn [kids pos par with_links].
      rewrite Hx. unfold km. rewrite E, E2, andb_false_r. split; [done|].
      destruct (Ho c) as [-> ->]; [|done]. intros k' Hk' Hc'. apply HGa in Hc'; [|done]. destruct (HG _ _ _ Hc') as (H4 & H5 & H6).
      subst r k. rewrite H6, is_refl, H5 in E2. unfold inr in E2. lia.
  - intros c Hc. apply Ho. intros k Hk Hc'. apply HGa in Hc'; [|done]. by apply (Hc a k).
Qed.
Lemma klinks_inj s G a i n : klinks s G -> (forall k, i <= k < i + n -> G a k <> None) ->
  (forall k, i <= k < i + n -> kids s a k <> None) /\ (forall k k', i <= k < i + n -> i <= k' < i + n -> kids s a k = kids s a k' -> k = k').
Proof.
  intros HG Hs. assert (H : forall k, i <= k < i + n -> exists c, kids s a k = Some c /\ pos s c = k).
  { intros k Hk. destruct (G a k) as [c|] eqn:E; [|by apply (Hs k) in E]. destruct (HG a k c E) as (H1 & H2 & _). eauto. }
  split; [intros k Hk; destruct (H k Hk) as (c & -> & _); done|].
  intros k k' H1 H2 E. destruct (H k H1) as (c & E1 & <-), (H k' H2) as (c' & E2 & <-). congruence.
Qed.
Lemma kids_fwd_links (init clr : bool) s a i b j n G : klinks s G -> alive s a = true -> alive s b = true -> j + n <= S kN -> a <> b \/ j < i ->
  (init = false -> a = b) -> (forall k, i <= k < i + n -> G a k <> None) -> links s G (kids_fwd kN init clr n s a i b j) (km true a i b j n G).
Proof.
  intros HG Ha Hb Hj Hij Hab Hs. destruct (klinks_inj s G a i n HG Hs). eapply lstep_links; eauto. apply kids_fwd_ok; auto. intros ? ?; reflexivity.
Qed.
Lemma kids_back_links (init clr : bool) s a i b j n G : klinks s G -> alive s a = true -> alive s b = true -> j + n <= S kN -> a <> b \/ i < j ->
  (init = false -> a = b) -> (forall k, i <= k < i + n -> G a k <> None) -> links s G (kids_back kN init clr n s a i b j) (km true a i b j n G).
Proof.
  intros HG Ha Hb Hj Hij Hab Hs. destruct (klinks_inj s G a i n HG Hs). eapply lstep_links; eauto. apply kids_back_ok; auto. intros ? ?; reflexivity.
Qed.
Definition lk g : role -> nat -> option C := fun r k => g r !! k.
Lemma lk_app {A} (l1 l2 : list A) k : (l1 ++ l2) !! k = if k <? length l1 then l1 !! k else l2 !! (k - length l1).
Proof. destruct (Nat.ltb_spec k (length l1)); [by rewrite lookup_app_l|by rewrite lookup_app_r by lia]. Qed.
Lemma lk_cons {A} (d : A) (l : list A) k : (d :: l) !! k = if k =? 0 then Some d else l !! (k - 1).
Proof. destruct k; cbn; [done|]. by rewrite Nat.sub_0_r. Qed.
Lemma lk_take {A} n (l : list A) k : take n l !! k = if k <? n then l !! k else None.
Proof. destruct (Nat.ltb_spec k n); [by rewrite lookup_take|by rewrite lookup_take_ge]. Qed.
Lemma lk_ge {A} (l : list A) k : length l <= k -> l !! k = None. Proof. apply lookup_ge_None_2. Qed.
Lemma lk_lt {A} (l : list A) k : k < length l -> l !! k <> None. Proof. intros H. by destruct (lookup_lt_is_Some_2 l k H) as [y ->]. Qed.
Ltac lk_done := first [reflexivity | lia | apply lk_lt; lia | apply lk_ge; lia | symmetry; apply lk_ge; lia | rewrite !lk_ge by lia; reflexivity
  | match goal with |- ?l !! ?x = ?l !! ?y => replace y with x by lia; reflexivity end
  | match goal with H : ?l !! ?k = Some _ |- ?l !! ?e = _ => replace e with k by lia; exact H end
  | match goal with H : ?l !! ?k = Some _ |- _ = ?l !! ?e => replace e with k by lia; symmetry; exact H end ].
Ltac link := unfold km, inr; unfold lk; cbn [is andb three]; repeat first [rewrite lk_take | rewrite lookup_drop | rewrite lk_app | rewrite lk_cons]; rewrite ?lookup_nil, ?take_length; cmp; lk_done.

(** ** rebalance_right_to_left *)
(** the values of L and R with the separator between them, cut again at number n *)
Definition recut f g p d n x : (role -> list V) * (role -> list C) :=
  let row := f L ++ d :: f R in let krow := g L ++ g R in
  (three (take n row) (<[p := x]> (f P)) (drop (S n) row), three (take (S n) krow) (g P) (drop (S n) krow)).

Lemma with_with s x y : with_cells (with_cells s x) y = with_cells s y. Proof. reflexivity. Qed.
Lemma good_links lone s f g : good_ lone s f g -> klinks s (lk g). Proof. intros H r k c Hc. by apply (g_kids H). Qed.
Lemma sep_of s f g p : good s f g -> siblings s g p -> sep s = p.
Proof. intros H [H1 _]. by destruct (g_kids H P p (nid s L) H1) as (_ & E & _). Qed.
Lemma sep_val s f g p : good s f g -> siblings s g p -> S p < length (g P) /\ p < length (f P) /\ exists d, f P !! p = Some d.
Proof.
  intros H [_ H1]. apply lookup_lt_Some in H1. pose proof (g_full _ _ _ H P) as H2. destruct (g_inner H) as [E _]. rewrite E in H2.
  split; [lia|]. split; [lia|]. apply lookup_lt_is_Some_2. lia.
Qed.
(* the children moved by the loops of a function *)
Lemma links_leaf s G (h : st -> res st) G' : inner s L = false -> klinks s G -> (forall r k, G r k = G' r k) ->
  links s G (if inner s L then h s else Ok s) G'.
Proof. intros -> HG HE. eapply links_eq; [by apply links_ret|done]. Qed.
Lemma good_intro lone lone' s f g f' g' x xk y z cn : good_ lone s f g -> (forall r, cn r = length (f' r)) -> eqm x (mem f') -> (forall r, length (f' r) <= cap s r) ->
  (forall r, length (g' r) = if lone' && is r R then length (f' r) else if inner s r then S (length (f' r)) else 0) ->
  klinks (with_links s xk y z) (lk g') -> (forall c, (forall r k, lk g r k <> Some c) -> z c = pos s c /\ y c = par s c) ->
  let s' := mkSt x xk y z cn (cap s) (inner s) (alive s) (nid s) in good_ lone' s' f' g' /\ frame s s' g.
Proof.
  intros H Hc Hx Hcap Hl Hk Hf s'. split.
  - constructor; cbn; auto.
    + apply (g_alive H).
    + intros r. split; [apply Hcap|]. apply (g_cap H).
    + apply (g_inner H).
  - split; [done|]. split; [done|]. split; [done|]. split; [done|]. intros c Hn. cbn. destruct (Hf c) as [-> ->]; [|done].
    intros r k E. apply (Hn r). apply elem_of_list_lookup. by exists k.
Qed.
Ltac side := try solve [assumption | match goal with Ha : forall r, alive _ r = true |- _ => exact (Ha _) end | intros k Hk; slot | slot | cbn [cap with_cells]; lia | left; discriminate | right; lia].
Ltac lside := try solve [assumption | match goal with Ha : forall r, alive _ r = true |- _ => exact (Ha _) end | lia | left; discriminate | right; lia | reflexivity | intros ?; discriminate | intros k Hk; link].
Ltac nx L x H := let E := fresh in edestruct L as (x & E & H); [side..|rewrite E; clear E; rewrite ?with_with; cbn [rbind]].

Lemma recut_len s f g p d n y : good s f g -> f P !! p = Some d -> n <= length (f L) + length (f R) ->
  forall r, length (snd (recut f g p d n y) r) = if inner s r then S (length (fst (recut f g p d n y) r)) else 0.
Proof.
  intros H Hd Hn r. pose proof (g_full _ _ _ H L) as HlL. pose proof (g_full _ _ _ H R) as HlR. pose proof (g_full _ _ _ H P) as HlP. destruct (g_inner H) as [HiP HiR].
  rewrite HiP in HlP. rewrite <- HiR in HlR. unfold recut; cbn [fst snd]. destruct r; cbn [three]; rewrite ?HiP, <- ?HiR;
    destruct (inner s L); rewrite ?take_length, ?drop_length, ?insert_length, ?app_length; cbn [length]; lia.
Qed.
Theorem rebalance_right_to_left_ok s f g p d n y : good s f g -> siblings s g p -> f P !! p = Some d -> 1 <= n <= length (f R) -> length (f L) + n <= cap s L ->
  f R !! (n - 1) = Some y ->
  exists s', rebalance_right_to_left gone kN s n = Ok s' /\
    good s' (fst (recut f g p d (length (f L) + n) y)) (snd (recut f g p d (length (f L) + n) y)) /\ frame s s' g.
Proof.
  intros H Hp Hd Hn Hcap Hy. pose proof (sep_of _ _ _ _ H Hp) as Hsep. destruct (sep_val _ _ _ _ H Hp) as (Hp1 & Hp2 & _).
  pose proof (g_cells H) as Hm. pose proof (g_alive H) as Ha. pose proof (g_cnt H) as Hc.
  unfold rebalance_right_to_left. rewrite !Hc, Hsep. unfold sep in *.
  nx (move_init_ok gone s P p L (length (f L)) (mem f)) x1 H1.
  nx (uninit_move_ok gone (n - 1) (with_cells s x1) R 0 L (length (f L) + 1) _ H1) x2 H2.
  cbn [pos nid with_cells]. rewrite Hsep.
  nx (move_assign_ok gone (with_cells s x2) R (n - 1) P p _ H2) x3 H3.
  nx (move_fwd_ok gone (length (f R) - n) (with_cells s x3) R n R 0 _ H3) x4 H4.
  nx (destroy_n_ok n (with_cells s x4) R (length (f R) - n) _ H4) x5 H5.
  set (s5 := with_cells s x5) in *.
  assert (HG : klinks s5 (lk g)) by apply (good_links _ _ _ _ H).
  pose proof (g_full _ _ _ H) as Hl. pose proof (g_cap H L) as HcL. pose proof (g_cap H R) as HcR. destruct (g_inner H) as [HiP HiR].
  assert (Hlk : links s5 (lk g) (if inner s5 L then let* s := kids_fwd kN true false n s5 R 0 L (length (f L) + 1) in kids_fwd kN true true (length (f R) - n + 1) s R n R 0 else Ok s5)
                (lk (snd (recut f g p d (length (f L) + n) y)))).
  { pose proof (Hl L) as HlL. pose proof (Hl R) as HlR. rewrite <- HiR in HlR. change (inner s5 L) with (inner s L). destruct (inner s L) eqn:EL.
    - eapply links_bind; [apply kids_fwd_links; lside|apply km_keeps|].
      intros xk yk zk HG'. eapply links_eq; [apply kids_fwd_links; lside|].
      intros r k. unfold recut; cbn [snd]. destruct r; link.
    - eapply links_eq; [by apply links_ret|]. intros r k. unfold recut; cbn [snd]. destruct r; link. }
  destruct Hlk as (xk & yk & zk & E & Hk1 & Hk2). rewrite E. cbn [rbind]. eexists. split; [reflexivity|].
  apply (good_intro false false s f g); auto.
  - intros r. unfold recut; cbn. destruct r; rewrite ?upd_at; cbn; rewrite ?take_length, ?drop_length, ?insert_length, ?app_length; cbn; auto; lia.
  - intros r k. rewrite H5. unfold recut; cbn [fst]. destruct r; slot.
  - intros r. pose proof (g_cap H r). unfold recut; cbn. destruct r; cbn; rewrite ?take_length, ?drop_length, ?insert_length, ?app_length; cbn; lia.
  - apply (recut_len s f g p d); auto; lia.
Qed.

(** ** rebalance_left_to_right *)
Theorem rebalance_left_to_right_ok s f g p d n y : good s f g -> siblings s g p -> f P !! p = Some d -> 1 <= n <= length (f L) -> length (f R) + n <= cap s R ->
  f L !! (length (f L) - n) = Some y ->
  exists s', rebalance_left_to_right gone kN s n = Ok s' /\
    good s' (fst (recut f g p d (length (f L) - n) y)) (snd (recut f g p d (length (f L) - n) y)) /\ frame s s' g.
Proof.
  intros H Hp Hd Hn Hcap Hy. pose proof (sep_of _ _ _ _ H Hp) as Hsep. destruct (sep_val _ _ _ _ H Hp) as (Hp1 & Hp2 & _).
  pose proof (g_cells H) as Hm. pose proof (g_alive H) as Ha. pose proof (g_cnt H) as Hc.
  unfold rebalance_left_to_right. rewrite !Hc. unfold sep in *.
  set (row := f L ++ d :: f R).
  set (m1 := fun r k => match r with
               | L => if (k <? length (f L)) && (length (f L) - (n - 1) <=? k) then Live gone else at_ (f L) k
               | P => if k =? p then Live gone else at_ (f P) k
               | R => at_ (drop (S (length (f L) - n)) row) k end).
  match goal with |- exists s', (let* s0 := ?o in _) = _ /\ _ => assert (Hs1 : step s o m1) end.
  { destruct (Nat.leb_spec n (length (f R))).
    - eapply step_bind; [apply (uninit_move_ok gone n s R (length (f R) - n) R (length (f R)) (mem f)); side|]. intros x1 H1.
      eapply step_bind; [apply (move_back_ok gone (length (f R) - n) (with_cells s x1) R 0 R n _ H1); side|]. intros x2 H2.
      cbn [pos nid with_cells]. rewrite Hsep.
      eapply step_bind; [apply (move_assign_ok gone (with_cells s x2) P p R (n - 1) _ H2); side|]. intros x3 H3.
      eapply step_eq; [apply (move_fwd_ok gone (n - 1) (with_cells s x3) L (length (f L) - (n - 1)) R 0 _ H3); side|].
      intros r k. unfold m1, row. destruct r; slot.
    - eapply step_bind; [apply (uninit_move_ok gone (length (f R)) s R 0 R n (mem f)); side|]. intros x1 H1.
      cbn [pos nid with_cells]. rewrite Hsep.
      eapply step_bind; [apply (move_init_ok gone (with_cells s x1) P p R (n - 1) _ H1); side|]. intros x2 H2.
      eapply step_bind; [apply (uninit_move_ok gone (n - length (f R) - 1) (with_cells s x2) L (length (f L) - (n - length (f R) - 1)) R (length (f R)) _ H2); side|]. intros x3 H3.
      eapply step_eq; [apply (move_fwd_ok gone (n - 1 - (n - length (f R) - 1)) (with_cells s x3) L (length (f L) - (n - 1)) R 0 _ H3); side|].
      intros r k. unfold m1, row. destruct r; slot. }
  destruct Hs1 as (x1 & -> & H1). cbn [rbind]. cbn [pos nid with_cells]. rewrite Hsep.
  assert (HL : raw (m1 L (length (f L) - n)) = false) by (unfold m1; slot).
  assert (HP : raw (m1 P p) = false) by (unfold m1; slot).
  nx (move_assign_ok gone (with_cells s x1) L (length (f L) - n) P p _ H1) x2 H2.
  nx (destroy_n_ok n (with_cells s x2) L (length (f L) - n) _ H2) x3 H3.
  { intros k Hk. unfold m1. slot. }
  set (s5 := with_cells s x3) in *.
  assert (HG : klinks s5 (lk g)) by apply (good_links _ _ _ _ H).
  pose proof (g_full _ _ _ H) as Hl. pose proof (g_cap H L) as HcL. pose proof (g_cap H R) as HcR. destruct (g_inner H) as [HiP HiR].
  match goal with |- exists s', (let* s0 := ?o in _) = _ /\ _ => assert (Hlk : links s5 (lk g) o (lk (snd (recut f g p d (length (f L) - n) y)))) end.
  { pose proof (Hl L) as HlL. pose proof (Hl R) as HlR. rewrite <- HiR in HlR. change (inner s5 L) with (inner s L). destruct (inner s L) eqn:EL.
    - eapply links_bind; [apply kids_back_links; lside|apply km_keeps|].
      intros xk yk zk HG'. eapply links_eq; [apply kids_fwd_links; lside|].
      intros r k. unfold recut; cbn [snd]. destruct r; link.
    - eapply links_eq; [by apply links_ret|]. intros r k. unfold recut; cbn [snd]. destruct r; link. }
  destruct Hlk as (xk & yk & zk & E & Hk1 & Hk2). rewrite E. cbn [rbind]. eexists. split; [reflexivity|].
  apply (good_intro false false s f g); auto.
  - intros r. unfold recut; cbn [fst]. destruct r; unfold s5, set_cnt; cbn [cnt with_links with_cells]; rewrite ?upd_at; cbn [is three]; rewrite ?take_length, ?drop_length, ?insert_length, ?app_length; cbn [length]; auto; lia.
  - intros r k. rewrite H3. unfold recut; cbn [fst]. unfold m1, row. destruct r; slot.
  - intros r. pose proof (g_cap H r). unfold recut; cbn [fst]. destruct r; cbn [three]; rewrite ?take_length, ?drop_length, ?insert_length, ?app_length; cbn [length]; lia.
  - apply (recut_len s f g p d); auto; lia.
Qed.

(** ** split *)
Definition opened g p : role -> nat -> option C := fun r k =>
  if is r P then (if k <=? p then g P !! k else if k =? S p then None else g P !! (k - 1)) else g r !! k.
Lemma shifted_links s g p xk yk zk : klinks s (lk g) -> kids_shifted s P p (g P) xk yk zk ->
  klinks (with_links s xk yk zk) (opened g p) /\ (forall c, (forall r k, lk g r k <> Some c) -> zk c = pos s c /\ yk c = par s c).
Proof.
  intros HG (H1 & H2 & H3 & H4 & H5). split.
  - intros r k c. unfold opened. cbn [kids pos par with_links]. destruct (is r P) eqn:E.
    + apply is_true in E; subst r. destruct (Nat.leb_spec k p).
      * intros Hc. destruct (H3 k c) as [-> ->]; [done..|]. rewrite H2. destruct (HG P k c Hc) as (_ & _ & ->). done.
      * destruct (Nat.eqb_spec k (S p)); [done|]. intros Hc. destruct (H4 (k - 1) c) as [H6 ->]; [lia|done|]. rewrite H2. destruct (HG P (k - 1) c Hc) as (_ & _ & ->).
        replace (S (k - 1)) with k in * by lia. done.
    + intros Hc. apply is_false in E. rewrite H1, H2 by done. destruct (HG r k c Hc) as (H6 & H7 & H8). rewrite H5; [done|].
      intros [k' Hk']%elem_of_list_lookup. destruct (HG P k' c Hk') as (_ & _ & H9). congruence.
  - intros c Hc. split; [|apply H2]. apply H5. intros [k Hk]%elem_of_list_lookup. by apply (Hc P k).
Qed.
Lemma init_child_links s r k c G : klinks s G -> alive s r = true -> k <= kN -> (forall r' k', G r' k' <> Some c) -> exists x y z, init_child kN s r k c = Ok (with_links s x y z) /\
  klinks (with_links s x y z) (fun r' k' => if is r' r && (k' =? k) then Some c else G r' k') /\
  (forall c', c' <> c -> z c' = pos s c' /\ y c' = par s c').
Proof.
  intros HG Ha Hk Hn. unfold init_child, set_child. rewrite Ha. replace (k <=? kN) with true by lia. cbn [andb rbind]. unfold with_links; cbn.
  eexists _, _, _. split; [reflexivity|]. split.
  - intros r' k' c'. cbn. rewrite !updc_at, upd_at. destruct (is r' r && (k' =? k)) eqn:E.
    + intros [= <-]. apply andb_true_iff in E as [E1%is_true E2]. subst r'. rewrite is_refl, updn_at, E2, !decide_True by done. split; [done|]. split; [lia|done].
    + intros Hc. assert (c' <> c) by (intros ->; by apply (Hn r' k')). rewrite !decide_False by done. destruct (HG r' k' c' Hc) as (H1 & H2 & H3). split; [|done].
      destruct (is r' r) eqn:E1; [|done]. apply is_true in E1; subst r'. rewrite updn_at. cbn [andb] in E. by rewrite E.
  - intros c' Hc. cbn. by rewrite !updc_at, !decide_False by done.
Qed.
Definition split_at (n ip : nat) : nat := n - (if ip =? 0 then n - 1 else if ip =? kN then 0 else n / 2) - 1.
Theorem split_ok s f g p ip y : good_ true s f g -> f R = [] -> g P !! p = Some (nid s L) -> (forall r, nid s R ∉ g r) -> 1 <= length (f L) ->
  length (f P) < cap s P -> length (f L) <= cap s R ->
  let m := split_at (length (f L)) ip in f L !! m = Some y ->
  exists s', split gone kN s ip = Ok s' /\ let g' := three (take (S m) (g L)) (take (S p) (g P) ++ nid s R :: drop (S p) (g P)) (drop (S m) (g L)) in
    good s' (three (take m (f L)) (take p (f P) ++ y :: drop p (f P)) (drop (S m) (f L))) g' /\ frame s s' g'.
Proof.
  intros H HfR Hp Hnew Hn HcP HcR. intros m Hy. pose proof (g_cells H) as Hm. pose proof (g_alive H) as Ha. pose proof (g_cnt H) as Hc.
  assert (Hsep : pos s (nid s L) = p) by (by destruct (g_kids H P p _ Hp) as (_ & -> & _)).
  pose proof (g_len H P) as HlP. pose proof (g_len H L) as HlL. pose proof (g_len H R) as HlR. cbn in HlP, HlL, HlR. destruct (g_inner H) as [HiP HiR].
  rewrite HiP in HlP. rewrite HfR in HlR. cbn in HlR. apply lookup_lt_Some in Hp as Hp'. pose proof (lookup_lt_Some _ _ _ Hy) as Hml.
  pose proof (g_cap H P) as HP. pose proof (g_cap H L) as HL.
  unfold split. rewrite !Hc. unfold split_at in m.
  set (d := if ip =? 0 then length (f L) - 1 else if ip =? kN then 0 else length (f L) / 2) in *.
  assert (Hd : d < length (f L)).
  { unfold d. destruct (ip =? 0); [lia|]. destruct (ip =? kN); [lia|]. apply Nat.div_lt; lia. }
  clearbody d. set (s0 := set_cnt (set_cnt s R d) L (length (f L) - d)).
  assert (Hm0 : eqm (cells s0) (mem f)) by exact Hm.
  assert (Ha0 : forall r, alive s0 r = true) by exact Ha.
  nx (uninit_move_ok gone d s0 L (length (f L) - d) R 0 (mem f) Hm0) x1 H1.
  { intros k Hk. unfold mem. by rewrite HfR. }
  { change (cap s0 R) with (cap s R). lia. }
  nx (destroy_n_ok d (with_cells s0 x1) L (length (f L) - d) _ H1) x2 H2.
  fold m. assert (Em : S (m + d) = length (f L)) by (unfold m; lia). clearbody m. set (s2 := set_cnt (with_cells s0 x2) L m).
  assert (Hm2 : eqm (cells s2) (ds L (length (f L) - d) d (mv gone L (length (f L) - d) R 0 d (mem f)))) by exact H2.
  assert (Hsep2 : sep s2 = p) by exact Hsep. rewrite Hsep2.
  edestruct (emplace_value_ok s2 P p (From L m) y (f P) (g P)) as (x3 & xk & yk & zk & -> & H3 & Hsh); [exact Hm2|..].
  { intros k. by slot. }
  { apply Ha. }
  { cbn. rewrite !upd_at. apply Hc. }
  { change (cap s2 P) with (cap s P). lia. }
  { change (cap s2 P) with (cap s P). lia. }
  { intros k c Hk. destruct (g_kids H P k c Hk) as (E1 & E2 & _). by split. }
  { change (inner s2 P) with (inner s P). by rewrite HiP. }
  { cbn beta iota. split; [done|]. split; [apply Ha|]. split; [|reflexivity]. slot. }
  cbn [rbind].
  set (s3 := mkSt x3 xk yk zk (upd (cnt s2) P (S (length (f P)))) (cap s2) (inner s2) (alive s2) (nid s2)).
  assert (Hg3 : klinks s3 (opened g p) /\ (forall c, (forall r k, lk g r k <> Some c) -> zk c = pos s c /\ yk c = par s c)).
  { exact (shifted_links s g p xk yk zk (good_links _ _ _ _ H) Hsh). }
  destruct Hg3 as [Hg3 Hfr3].
  assert (Hsep3 : zk (nid s L) = p).
  { destruct Hsh as (_ & _ & E & _). by apply (E p (nid s L)). }
  nx (destroy_ok s3 L m _ H3) x4 H4.
  { unfold inserted. slot. }
  set (s4 := with_cells s3 x4). change (sep s4) with (zk (nid s L)). rewrite Hsep3. change (nid s4 R) with (nid s R).
  destruct (init_child_links s4 P (p + 1) (nid s R) (opened g p)) as (xk5 & yk5 & zk5 & -> & Hg5 & Hfr5); [exact Hg3|apply Ha|lia| |].
  { intros r k E. unfold opened in E. destruct (is r P) eqn:Er; [|by apply (Hnew r), elem_of_list_lookup; exists k].
    destruct (k <=? p); [by apply (Hnew P), elem_of_list_lookup; exists k|]. destruct (k =? S p); [done|]. by apply (Hnew P), elem_of_list_lookup; exists (k - 1). }
  cbn [rbind]. set (s5 := with_links s4 xk5 yk5 zk5) in *. set (G5 := fun r' k' => if is r' P && (k' =? p + 1) then Some (nid s R) else opened g p r' k') in *.
  set (g' := three (take (S m) (g L)) (take (S p) (g P) ++ nid s R :: drop (S p) (g P)) (drop (S m) (g L))).
  assert (Hlk : links s5 G5 (if inner s5 L then kids_fwd kN true true (d + 1) s5 L (m + 1) R 0 else Ok s5) (lk g')).
  { change (inner s5 L) with (inner s L). assert (Ha5 : forall r, alive s5 r = true) by exact Ha. destruct (inner s L) eqn:EL.
    - eapply links_eq; [apply kids_fwd_links; lside|].
      intros r k. unfold G5, opened, g'. destruct r; link.
    - eapply links_eq; [apply links_ret; exact Hg5|]. intros r k. unfold G5, opened, g'. destruct r; link. }
  destruct Hlk as (xk6 & yk6 & zk6 & E & Hk1 & Hk2). rewrite E. eexists. split; [reflexivity|].
  assert (Hin : forall c, (forall r, c ∉ g' r) -> c <> nid s R /\ forall r k, lk g r k <> Some c).
  { intros c Hcn. split.
    - intros ->. apply (Hcn P). unfold g'; cbn [three]. apply elem_of_app. right. left.
    - intros r k Hk. unfold lk in Hk. assert (Hin : c ∈ g r) by (apply elem_of_list_lookup; eauto). destruct r.
      + rewrite <- (take_drop (S m) (g L)) in Hin. apply elem_of_app in Hin as [Hin|Hin]; [by apply (Hcn L)|by apply (Hcn R)].
      + rewrite <- (take_drop (S p) (g P)) in Hin. apply (Hcn P). unfold g'; cbn [three]. apply elem_of_app. apply elem_of_app in Hin as [Hin|Hin]; [by left|right; by right].
      + apply lookup_lt_Some in Hk. lia. }
  split.
  - constructor; cbn; auto.
    + intros r. rewrite !upd_at. destruct r; cbn [is three]; rewrite ?take_length, ?drop_length, ?app_length; cbn [length]; rewrite ?take_length, ?drop_length; lia.
    + assert (HfR' : length (f R) = 0) by (by rewrite HfR). intros r k. rewrite H4. unfold inserted. destruct r; slot.
    + intros r. pose proof (g_cap H r). destruct r; cbn [three]; rewrite ?take_length, ?drop_length, ?app_length; cbn [length]; rewrite ?take_length, ?drop_length; lia.
    + intros r. unfold g'. destruct r; cbn [three]; rewrite ?HiP, <- ?HiR; try destruct (inner s L); rewrite ?take_length, ?drop_length, ?app_length; cbn [length]; rewrite ?take_length, ?drop_length; lia.
  - repeat (split; [done|]). intros c Hcn. cbn. destruct (Hin c Hcn) as [Hc1 Hc2]. destruct (Hk2 c) as [-> ->].
    { intros r k. unfold G5, opened. destruct (is r P && (k =? p + 1)); [congruence|]. destruct (is r P); [|apply Hc2].
      destruct (k <=? p); [apply (Hc2 P)|]. destruct (k =? S p); [done|]. apply (Hc2 P). }
    cbn. destruct (Hfr5 c Hc1) as [-> ->]. cbn. destruct (Hfr3 c Hc2) as [-> ->]. done.
Qed.

End Ops.
