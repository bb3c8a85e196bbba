(** A root that is a leaf: swapping two leaves, growing the root, arguments that refer to an element of the container, and
    constructors that throw. *)
From stdpp Require Import list.
From Coq Require Import Arith Lia ZifyBool ZifyNat.
From Verif.Common Require Import Res.
From Verif.BTree Require Import Slots SlotsFacts SlotsOps SlotsOps2.
Local Open Scope nat_scope.
Local Open Scope res_scope.

Ltac cmp := repeat match goal with
  | |- context [?a =? ?b] => destruct (Nat.eqb_spec a b); try lia
  | |- context [?a <? ?b] => destruct (Nat.ltb_spec a b); try lia
  | |- context [?a <=? ?b] => destruct (Nat.leb_spec a b); try lia
  end; cbn [andb orb negb].
Ltac at_done := first
  [ reflexivity | lia
  | apply at_lt; lia
  | apply at_ge; lia
  | symmetry; apply at_ge; lia
  | rewrite !at_ge by lia; reflexivity
  | match goal with |- at_ ?l ?x = at_ ?l ?y => replace y with x by lia; reflexivity end
  | match goal with H : ?l !! ?k = Some _ |- at_ ?l ?e = _ => replace e with k by lia; rewrite (at_some _ _ _ H); reflexivity end
  | match goal with H : ?l !! ?k = Some _ |- _ = at_ ?l ?e => replace e with k by lia; rewrite (at_some _ _ _ H); reflexivity end ].
Ltac slot := unfold mv, ds, inr; unfold mem; cbn [is andb three];
  repeat first [rewrite at_take | rewrite at_drop | rewrite at_app | rewrite at_cons]; rewrite ?at_nil, ?take_length;
  repeat match goal with |- context [at_ (<[?p:=?x]> ?l) ?k] => rewrite (at_insert p x l k) by lia end; cmp; at_done.
Ltac lk_done := first [reflexivity | lia | apply lk_lt; lia | apply lk_ge; lia | symmetry; apply lk_ge; lia | rewrite !lk_ge by lia; reflexivity
  | match goal with |- ?l !! ?x = ?l !! ?y => replace y with x by lia; reflexivity end
  | match goal with H : ?l !! ?k = Some _ |- ?l !! ?e = _ => replace e with k by lia; exact H end
  | match goal with H : ?l !! ?k = Some _ |- _ = ?l !! ?e => replace e with k by lia; symmetry; exact H end ].
Ltac link := unfold km, inr; unfold lk; cbn [is andb three]; repeat first [rewrite lk_take | rewrite lookup_drop | rewrite lk_app | rewrite lk_cons]; rewrite ?lookup_nil, ?take_length; cmp; lk_done.
Ltac side := try solve [assumption | match goal with Ha : forall r, alive _ r = true |- _ => exact (Ha _) end | intros k Hk; slot | slot | cbn [cap with_cells]; lia | left; discriminate | right; lia].
Ltac lside := try solve [assumption | match goal with Ha : forall r, alive _ r = true |- _ => exact (Ha _) end | lia | left; discriminate | right; lia | reflexivity | intros ?; discriminate | intros k Hk; link].
Ltac nx L x H := let E := fresh in edestruct L as (x & E & H); [side..|rewrite E; clear E; rewrite ?with_with; cbn [rbind]].

Section Root.
Context {V C : Type} `{EqDecision C} (gone : V) (kN : nat).
Notation st := (st V C).
Notation cell := (cell V).
Implicit Types (s : st) (a b r : role) (i j k n p : nat) (v d : V) (c : C) (vs : list V).

(** ** swap *)
Definition swp a b i n (m : role -> nat -> cell) : role -> nat -> cell := fun r k =>
  if inr k i n then (if is r a then m b k else if is r b then m a k else m r k) else m r k.
Lemma swap_slots_ok n s a b i m : a <> b -> eqm (cells s) m -> alive s a = true -> alive s b = true ->
  (forall k, i <= k < i + n -> raw (m a k) = false /\ raw (m b k) = false) -> step s (swap_slots n s a b i) (swp a b i n m).
Proof.
  intros Hab. revert s i m. induction n as [|n IH]; intros s i m Hm Ha Hb Hl; cbn [swap_slots].
  - apply step_ret. intros r k. rewrite Hm. unfold swp, inr. cmp; reflexivity.
  - destruct (Hl i ltac:(lia)) as [Ha1 Hb1]. rewrite <- Hm in Ha1, Hb1.
    destruct (get_ok s a i Ha Ha1) as (x & -> & Ex). destruct (get_ok s b i Hb Hb1) as (y & -> & Ey). cbn [rbind].
    set (s1 := set_cell (set_cell s a i (Live y)) b i (Live x)). rewrite Hm in Ex, Ey.
    assert (H1 : eqm (cells s1) (swp a b i 1 m)).
    { intros r k. unfold s1. rewrite !set_cell_at, Hm. unfold swp, inr. destruct (is r b) eqn:E1, (is r a) eqn:E2; cbn [andb].
      - apply is_true in E1, E2. congruence.
      - apply is_true in E1; subst r. cmp; try done. by replace k with i by lia.
      - apply is_true in E2; subst r. cmp; try done. by replace k with i by lia.
      - by cmp. }
    destruct (IH s1 (S i) _ H1) as (x2 & E & H2); auto.
    { intros k Hk. destruct (Hl k ltac:(lia)) as [H3 H4]. unfold swp, inr. cmp; done. }
    exists x2. split; [exact E|]. intros r k. rewrite H2. unfold swp, inr. destruct (is r a) eqn:E1, (is r b) eqn:E2; cmp; try reflexivity.
Qed.

(** a leaf of at most kNodeValues values, with exactly these values in its slots *)
Record lf s r vs : Prop := Lf {
  l_alive : alive s r = true;
  l_cnt : cnt s r = length vs;
  l_cap : length vs <= cap s r <= kN;
  l_inner : inner s r = false;
  l_cells : forall k, cells s r k = at_ vs k }.
Lemma swap_ok s a b va vb : a <> b -> lf s a va -> lf s b vb -> length vb <= cap s a -> length va <= cap s b ->
  exists s', swap gone s a b = Ok s' /\ lf s' a vb /\ lf s' b va /\ cap s' = cap s /\ alive s' = alive s /\ inner s' = inner s.
Proof.
  intros Hab Ha Hb Hcb Hca.
  assert (Hgen : forall a b va vb, a <> b -> lf s a va -> lf s b vb -> length vb <= cap s a -> length va <= length vb ->
    exists x, (let* s1 := swap_slots (length va) s a b 0 in let* s1 := uninit_move gone (length vb - length va) s1 b (length va) a (length va) in destroy_n (length vb - length va) s1 b (length va))
      = Ok (with_cells s x) /\ (forall k, x a k = at_ vb k) /\ (forall k, x b k = at_ va k)).
  { clear. intros a b va vb Hab Ha Hb Hc Hle. pose proof (l_alive _ _ _ Ha) as Aa. pose proof (l_alive _ _ _ Hb) as Ab.
    pose proof (l_cells _ _ _ Ha) as Ca. pose proof (l_cells _ _ _ Hb) as Cb.
    assert (is a b = false) as N1 by (destruct (is a b) eqn:E; [by apply is_true in E|done]).
    assert (is b a = false) as N2 by (destruct (is b a) eqn:E; [by apply is_true in E|done]).
    destruct (swap_slots_ok (length va) s a b 0 (cells s)) as (x1 & -> & H1); auto; [done| |].
    { intros k Hk. rewrite Ca, Cb. split; apply at_lt; lia. }
    cbn [rbind].
    destruct (uninit_move_ok gone (length vb - length va) (with_cells s x1) b (length va) a (length va) _ H1) as (x2 & -> & H2); auto.
    { intros k Hk. unfold swp, inr. rewrite N2, is_refl, Ca, Cb. cmp; at_done. }
    { intros k Hk. unfold swp, inr. rewrite is_refl, Ca, Cb. cmp; at_done. }
    { cbn. lia. }
    cbn [rbind].
    destruct (destroy_n_ok (length vb - length va) (with_cells (with_cells s x1) x2) b (length va) _ H2) as (x3 & -> & H3); auto.
    { intros k Hk. unfold mv, swp, inr. rewrite N2, is_refl. cbn [andb]. rewrite ?Ca, ?Cb. cmp; try at_done. }
    exists x3. split; [reflexivity|].
    split; intros k; rewrite H3; unfold ds, mv, swp, inr; rewrite ?N1, ?N2, !is_refl; cbn [andb]; rewrite ?Ca, ?Cb; cmp; try at_done; f_equal; lia. }
  unfold swap. rewrite (l_cnt _ _ _ Ha), (l_cnt _ _ _ Hb).
  destruct (Nat.ltb_spec (length vb) (length va)) as [Hlt|Hge].
  - rewrite (l_cnt _ _ _ Ha), (l_cnt _ _ _ Hb).
    destruct (Hgen b a vb va) as (x & E & X1 & X2); auto; [lia|].
    destruct (swap_slots _ _ _ _ _) as [s1| | | |]; cbn [rbind] in E |- *; try discriminate.
    destruct (uninit_move _ _ _ _ _ _ _) as [s2| | | |]; cbn [rbind] in E |- *; try discriminate. rewrite E. cbn [rbind].
    eexists. split; [reflexivity|].
    assert (is a b = false) as N1 by (destruct (is a b) eqn:E1; [by apply is_true in E1|done]).
    split; [|split; [|done]]; constructor; cbn; auto; try apply Ha; try apply Hb; rewrite ?upd_at, ?is_refl, ?N1; auto;
      (split; [lia|]); first [apply Ha | apply Hb].
  - rewrite (l_cnt _ _ _ Ha), (l_cnt _ _ _ Hb).
    destruct (Hgen a b va vb) as (x & E & X1 & X2); auto.
    destruct (swap_slots _ _ _ _ _) as [s1| | | |]; cbn [rbind] in E |- *; try discriminate.
    destruct (uninit_move _ _ _ _ _ _ _) as [s2| | | |]; cbn [rbind] in E |- *; try discriminate. rewrite E. cbn [rbind].
    eexists. split; [reflexivity|].
    assert (is a b = false) as N1 by (destruct (is a b) eqn:E1; [by apply is_true in E1|done]).
    split; [|split; [|done]]; constructor; cbn; auto; try apply Ha; try apply Hb; rewrite ?upd_at, ?is_refl, ?N1; auto;
      (split; [lia|]); first [apply Ha | apply Hb].
Qed.

(** delete_leaf_node destroys every value once *)
Lemma free_ok s r vs : lf s r vs -> exists x, free s r = Ok (mkSt x (kids s) (par s) (pos s) (cnt s) (cap s) (inner s) (upd (alive s) r false) (nid s)) /\
  (forall k, x r k = Raw) /\ (forall r' k, r' <> r -> x r' k = cells s r' k).
Proof.
  intros H. unfold free. rewrite (l_cnt _ _ _ H).
  destruct (destroy_n_ok (length vs) s r 0 (cells s)) as (x & -> & Hx); auto; [done|apply H| |].
  { intros k Hk. rewrite (l_cells _ _ _ H). apply at_lt. lia. }
  cbn [rbind]. exists x. split; [reflexivity|]. split.
  - intros k. rewrite Hx. unfold ds, inr. rewrite is_refl, (l_cells _ _ _ H). cbn [andb]. cmp; at_done.
  - intros r' k Hr. rewrite Hx. unfold ds. destruct (is r' r) eqn:E; [by apply is_true in E|done].
Qed.

(** ** emplacing in a leaf *)
Lemma emplace_leaf_ok s r i v vs : lf s r vs -> i <= length vs < cap s r ->
  exists s', emplace_value gone kN s r i (Val v) = Ok (s', false) /\ lf s' r (take i vs ++ v :: drop i vs) /\ alive s' = alive s /\ cap s' = cap s /\
    (forall r' k, r' <> r -> cells s' r' k = cells s r' k).
Proof.
  intros H Hi. destruct (emplace_value_ok gone kN s r i (Val v) v vs [] (cells s) (cells s)) as (x & xk & y & z & E & Hx & _); auto; try apply H; try lia.
  { done. } { intros k c. by rewrite lookup_nil. } { by rewrite (l_inner _ _ _ H). }
  eexists. split; [exact E|]. split.
  - constructor; cbn; try apply H.
    + rewrite upd_at, is_refl, app_length, take_length; cbn [length]. rewrite drop_length. lia.
    + rewrite app_length, take_length; cbn [length]. rewrite drop_length. destruct (l_cap _ _ _ H). lia.
    + intros k. rewrite Hx. unfold inserted. by rewrite is_refl.
  - split; [done|]. split; [done|]. intros r' k Hr. cbn. rewrite Hx. unfold inserted. destruct (is r' r) eqn:E1; [by apply is_true in E1|done].
Qed.
(* the slots after room has been made for a value *)
Lemma leaf_shift s r i vs : lf s r vs -> i <= length vs < cap s r ->
  step s (if i <? length vs then let* s := move_init gone s r (length vs - 1) r (length vs) in let* s := move_back gone (length vs - 1 - i) s r i r (i + 1) in destroy s r i else Ok s)
    (fun r' k => if is r' r then (if k <? i then at_ vs k else if k =? i then Raw else at_ vs (k - 1)) else cells s r' k).
Proof.
  intros H Hi. destruct (Nat.ltb_spec i (length vs)); [apply emplace_shift; auto; try apply H; [done|lia]|]. apply step_ret. intros r' k.
  destruct (is r' r) eqn:E; [apply is_true in E; subst|done]. rewrite (l_cells _ _ _ H). cmp; at_done.
Qed.
Lemma emplace_leaf_ref s r i j vs : lf s r vs -> i <= length vs < cap s r -> j < length vs ->
  emplace_value gone kN s r i (Ref r j) =
    (if j =? i then UB else match vs !! (if j <? i then j else j - 1) with Some v => emplace_value gone kN s r i (Val v) | None => UB end).
Proof.
  intros H Hi Hj. unfold emplace_value. rewrite (l_cnt _ _ _ H). replace (length vs <? i) with false by lia.
  destruct (leaf_shift s r i vs H Hi) as (x & -> & Hx). cbn [rbind value_init].
  unfold get. change (alive (with_cells s x) r) with (alive s r). rewrite (l_alive _ _ _ H). cbn [cells with_cells]. rewrite Hx, is_refl. unfold at_.
  destruct (Nat.eqb_spec j i) as [->|].
  - replace (i <? i) with false by lia. reflexivity.
  - destruct (Nat.ltb_spec j i).
    + destruct (lookup_lt_is_Some_2 vs j Hj) as [v ->]. reflexivity.
    + destruct (lookup_lt_is_Some_2 vs (j - 1)) as [v ->]; [lia|]. reflexivity.
Qed.
(* a constructor that throws: at the end nothing has happened; elsewhere slot i is a hole and a value is left beyond count() *)
Lemma emplace_leaf_boom s r i vs : lf s r vs -> i <= length vs < cap s r ->
  exists x, emplace_value gone kN s r i Boom = Ok (with_cells s x, true) /\
    eqm x (fun r' k => if is r' r then (if k <? i then at_ vs k else if k =? i then Raw else at_ vs (k - 1)) else cells s r' k).
Proof.
  intros H Hi. unfold emplace_value. rewrite (l_cnt _ _ _ H). replace (length vs <? i) with false by lia.
  destruct (leaf_shift s r i vs H Hi) as (x & -> & Hx). cbn [rbind value_init]. change (alive (with_cells s x) r) with (alive s r). rewrite (l_alive _ _ _ H).
  change (cap (with_cells s x) r) with (cap s r). replace (i <? cap s r) with true by lia. cbn [andb rbind]. by exists x.
Qed.
Lemma destroy_n_hole n s r i k0 : i <= k0 < i + n -> (forall k, i <= k < k0 -> raw (cells s r k) = false) -> cells s r k0 = Raw -> alive s r = true -> destroy_n n s r i = UB.
Proof.
  revert s i. induction n as [|n IH]; intros s i Hk Hl Hraw Ha; [lia|]. cbn [destroy_n]. unfold destroy, get. rewrite Ha.
  destruct (Nat.eq_dec i k0) as [->|]; [by rewrite Hraw|].
  pose proof (Hl i ltac:(lia)) as Hi. destruct (cells s r i) eqn:E; [done|]. cbn [rbind]. apply IH; auto; [lia| |].
  - intros k Hk'. rewrite set_cell_at, is_refl. cbn [andb]. cmp. apply Hl. lia.
  - rewrite set_cell_at, is_refl. cbn [andb]. cmp. done.
Qed.
Lemma emplace_leaf_boom_mid s r i vs : lf s r vs -> i < length vs -> length vs < cap s r ->
  exists s', emplace_value gone kN s r i Boom = Ok (s', true) /\ cnt s' r = length vs /\ get s' r i = UB /\ free s' r = UB /\ (exists v, cells s' r (length vs) = Live v).
Proof.
  intros H Hi Hc. destruct (emplace_leaf_boom s r i vs H) as (x & -> & Hx); [lia|]. exists (with_cells s x). split; [done|]. split; [apply H|].
  assert (Hal : alive (with_cells s x) r = true) by apply H. split; [|split].
  - unfold get. rewrite Hal. cbn [cells with_cells]. rewrite Hx, is_refl. by cmp.
  - unfold free. change (cnt (with_cells s x) r) with (cnt s r). rewrite (l_cnt _ _ _ H). rewrite (destroy_n_hole _ _ r 0 i); auto; [lia| |].
    + intros k Hk. cbn [cells with_cells]. rewrite Hx, is_refl. cmp. apply at_lt. lia.
    + cbn [cells with_cells]. rewrite Hx, is_refl. by cmp.
  - cbn [cells with_cells]. rewrite Hx, is_refl. cmp. destruct (lookup_lt_is_Some_2 vs (length vs - 1)) as [v E]; [lia|]. exists v. by apply at_some.
Qed.

(** ** emplacing in a root that is a leaf *)
Lemma new_leaf_lf s r n vs r0 : r0 <> r -> lf s r0 vs -> n <= kN -> lf (new_leaf s r n) r [] /\ lf (new_leaf s r n) r0 vs.
Proof.
  intros Hr H Hn. assert (is r0 r = false) as N by (destruct (is r0 r) eqn:E; [by apply is_true in E|done]).
  split; constructor; cbn; rewrite ?upd_at, ?is_refl, ?N; try apply H; auto. cbn. lia.
Qed.
Lemma grown s vs : lf s L vs -> length vs = cap s L -> cap s L < kN -> 1 <= length vs -> forall i x,
  exists s1, emplace_root gone kN s i x = (let* (s', t) := emplace_value gone kN s1 R i x in Ok (s', R, t)) /\ lf s1 R vs /\ alive s1 L = false /\ (forall k, cells s1 L k = Raw) /\
    length vs < cap s1 R.
Proof.
  intros H Hc Hk Hn i x. unfold emplace_root. rewrite (l_cnt _ _ _ H), Hc. replace (cap s L =? cap s L) with true by lia. replace (cap s L <? kN) with true by lia.
  destruct (new_leaf_lf s R (Nat.min kN (2 * cap s L)) vs L) as [HR HL]; [done|done|lia|]. set (s0 := new_leaf s R _) in *.
  assert (HcR : cap s0 R = Nat.min kN (2 * cap s L)) by reflexivity. clearbody s0.
  destruct (swap_ok s0 R L [] vs) as (s1 & -> & H1R & H1L & Ec & Ea & Ei); auto; [lia|cbn; lia|]. cbn [rbind].
  destruct (free_ok s1 L [] H1L) as (x1 & -> & Hx1 & Hx2). cbn [rbind].
  eexists. split; [reflexivity|]. split.
  - constructor; cbn; rewrite ?upd_at; cbn [is]; try apply H1R. intros k. rewrite Hx2 by done. apply H1R.
  - split; [done|]. split; [exact Hx1|]. cbn. rewrite Ec, HcR. lia.
Qed.
Lemma emplace_root_ok s i v vs : lf s L vs -> i <= length vs -> length vs < kN -> 1 <= cap s L ->
  exists s' r, emplace_root gone kN s i (Val v) = Ok (s', r, false) /\ lf s' r (take i vs ++ v :: drop i vs) /\
    (r = R -> alive s' L = false /\ forall k, cells s' L k = Raw).
Proof.
  intros H Hi Hk H1. destruct (l_cap _ _ _ H) as [Hc1 Hc2]. destruct (Nat.eq_dec (length vs) (cap s L)) as [E|E].
  - destruct (grown s vs H E ltac:(lia) ltac:(lia) i (Val v)) as (s1 & -> & HR & HA & HC & Hcap).
    destruct (emplace_leaf_ok s1 R i v vs HR) as (s' & -> & Hl & Ha & _ & Hf); [lia|]. cbn [rbind]. exists s', R. split; [done|]. split; [done|]. intros _.
    rewrite Ha. split; [done|]. intros k. rewrite Hf by done. apply HC.
  - unfold emplace_root. rewrite (l_cnt _ _ _ H). replace (length vs =? cap s L) with false by lia.
    destruct (emplace_leaf_ok s L i v vs H) as (s' & -> & Hl & _); [lia|]. cbn [rbind]. exists s', L. done.
Qed.
(* the argument refers to an element of a root that grows: the element has been destroyed and its node freed *)
Lemma emplace_root_ref_grow s i j vs : lf s L vs -> length vs = cap s L -> cap s L < kN -> i <= length vs -> j < length vs -> emplace_root gone kN s i (Ref L j) = UB.
Proof.
  intros H Hc Hk Hi Hj. destruct (grown s vs H Hc Hk ltac:(lia) i (Ref L j)) as (s1 & -> & HR & HA & HC & Hcap).
  unfold emplace_value. rewrite (l_cnt _ _ _ HR). replace (length vs <? i) with false by lia.
  destruct (leaf_shift s1 R i vs HR) as (x & -> & Hx); [lia|]. cbn [rbind value_init]. unfold get. change (alive (with_cells s1 x) L) with (alive s1 L). rewrite HA. reflexivity.
Qed.
Lemma emplace_root_ref_room s i j vs v : lf s L vs -> length vs < cap s L -> j < i <= length vs -> vs !! j = Some v ->
  emplace_root gone kN s i (Ref L j) = emplace_root gone kN s i (Val v).
Proof.
  intros H Hc Hi Hj. unfold emplace_root. rewrite (l_cnt _ _ _ H). replace (length vs =? cap s L) with false by lia.
  rewrite (emplace_leaf_ref s L i j vs H) by lia. replace (j =? i) with false by lia. replace (j <? i) with true by lia. by rewrite Hj.
Qed.
Lemma emplace_root_boom_end s vs : lf s L vs -> length vs < kN -> 1 <= cap s L ->
  exists s' r, emplace_root gone kN s (length vs) Boom = Ok (s', r, true) /\ lf s' r vs /\ (r = R -> alive s' L = false /\ forall k, cells s' L k = Raw).
Proof.
  intros H Hk H1. destruct (l_cap _ _ _ H) as [Hc1 Hc2].
  assert (Hsame : forall s r, lf s r vs -> length vs < cap s r -> exists x, emplace_value gone kN s r (length vs) Boom = Ok (with_cells s x, true) /\ lf (with_cells s x) r vs /\ forall r' k, r' <> r -> x r' k = cells s r' k).
  { intros s0 r Hl Hc. destruct (emplace_leaf_boom s0 r (length vs) vs Hl) as (x & -> & Hx); [lia|]. exists x. split; [done|]. split.
    - constructor; try apply Hl. intros k. cbn [cells with_cells]. rewrite Hx, is_refl. cmp; at_done.
    - intros r' k Hr. rewrite Hx. destruct (is r' r) eqn:E; [by apply is_true in E|done]. }
  destruct (Nat.eq_dec (length vs) (cap s L)) as [E|E].
  - destruct (grown s vs H E ltac:(lia) ltac:(lia) (length vs) Boom) as (s1 & -> & HR & HA & HC & Hcap).
    destruct (Hsame s1 R HR Hcap) as (x & -> & Hl & Hf). cbn [rbind]. exists (with_cells s1 x), R. split; [done|]. split; [done|]. intros _. split; [exact HA|].
    intros k. cbn. rewrite Hf by done. apply HC.
  - unfold emplace_root. rewrite (l_cnt _ _ _ H). replace (length vs =? cap s L) with false by lia.
    destruct (Hsame s L H ltac:(lia)) as (x & -> & Hl & Hf). cbn [rbind]. by exists (with_cells s x), L.
Qed.
End Root.
