(** The functions of a node, over arrays of slots and children, do what Tree.v says on lists. *)
From stdpp Require Import list.
From Coq Require Import Arith Lia ZifyBool ZifyNat.
From Verif.Common Require Import Res.
From Verif.BTree Require Import Slots.
Local Open Scope nat_scope.
Local Open Scope res_scope.

Section Facts.
Context {V C : Type} `{EqDecision C} (gone : V) (kN : nat).
Notation st := (st V C).
Notation cell := (cell V).
Implicit Types (s : st) (a b r : role) (i j k n : nat) (v : V) (c : C) (m : role -> nat -> cell).

(** ** what the loops over slots do to the slots *)
Definition inr k i n : bool := (i <=? k) && (k <? i + n).
Definition is r r' : bool := match r, r' with L, L | P, P | R, R => true | _, _ => false end.
Definition mv a i b j n m : role -> nat -> cell := fun r k =>
  if is r b && inr k j n then m a (i + (k - j)) else if is r a && inr k i n then Live gone else m r k.
Definition ds a i n m : role -> nat -> cell := fun r k => if is r a && inr k i n then Raw else m r k.
Definition eqm m m' := forall r k, m r k = m' r k.
(* a step of the node's code: the state with other slots *)
Definition step s (o : res st) m' := exists x, o = Ok (with_cells s x) /\ eqm x m'.

Lemma is_refl r : is r r = true. Proof. by destruct r. Qed.
Lemma is_true a b : is a b = true -> a = b. Proof. by destruct a, b. Qed.
Lemma is_false a b : is a b = false -> a <> b. Proof. by destruct a, b. Qed.
Lemma set_cell_at s r k x r' k' : cells (set_cell s r k x) r' k' = if is r' r && (k' =? k) then x else cells s r' k'.
Proof. destruct r, r'; reflexivity. Qed.
Lemma eqm_trans m1 m2 m3 : eqm m1 m2 -> eqm m2 m3 -> eqm m1 m3. Proof. intros H1 H2 r k. by rewrite H1. Qed.
Lemma step_ret s m : eqm (cells s) m -> step s (Ok s) m.
Proof. intros H. exists (cells s). split; [by destruct s|done]. Qed.
Lemma step_bind s o (f : st -> res st) m1 m2 : step s o m1 -> (forall x, eqm x m1 -> step (with_cells s x) (f (with_cells s x)) m2) -> step s (rbind o f) m2.
Proof. intros (x & -> & Hx) Hf. cbn [rbind]. destruct (Hf x Hx) as (y & E & Hy). exists y. split; [exact E|done]. Qed.
Lemma step_eq s o m1 m2 : step s o m1 -> eqm m1 m2 -> step s o m2.
Proof. intros (x & -> & Hx) H. exists x. split; [done|]. eapply eqm_trans; eauto. Qed.

Definition raw (x : cell) : bool := match x with Raw => true | _ => false end.
Lemma get_ok s r k : alive s r = true -> raw (cells s r k) = false -> exists v, get s r k = Ok v /\ cells s r k = Live v.
Proof. unfold get. intros ->. destruct (cells s r k); cbn; [done|eauto]. Qed.
Lemma construct_ok s r k v : alive s r = true -> k < cap s r -> cells s r k = Raw -> construct s r k v = Ok (set_cell s r k (Live v)).
Proof. unfold construct. intros -> H ->. by replace (k <? cap s r) with true by lia. Qed.

(* decide the comparisons of the goal *)
Ltac cmp := repeat match goal with
  | |- context [?a =? ?b] => destruct (Nat.eqb_spec a b); try lia
  | |- context [?a <? ?b] => destruct (Nat.ltb_spec a b); try lia
  | |- context [?a <=? ?b] => destruct (Nat.leb_spec a b); try lia
  end; cbn [andb orb negb].
Ltac same_cell := repeat match goal with H : ?x = ?y :> nat |- _ => first [subst x | subst y] end;
  first [reflexivity | congruence
  | match goal with |- ?m ?r ?x = ?m ?r ?y => replace y with x by lia; reflexivity end
  | match goal with H : ?m ?r ?x = _ |- ?m ?r ?y = _ => replace y with x by lia; congruence end
  | match goal with H : ?m ?r ?x = _ |- _ = ?m ?r ?y => replace y with x by lia; congruence end
  | exfalso; match goal with H : ?m ?r ?x = _, H' : ?m ?r ?y = _ |- _ => replace y with x in H' by lia; congruence end ].
Ltac roles := cbn [is andb].

Lemma move_init_ok s a i b j m : eqm (cells s) m -> alive s a = true -> alive s b = true -> raw (m a i) = false -> m b j = Raw -> j < cap s b ->
  step s (move_init gone s a i b j) (mv a i b j 1 m).
Proof.
  intros Hm Ha Hb Hi Hj Hc. rewrite <- Hm in Hi, Hj. unfold move_init. destruct (get_ok s a i Ha Hi) as (v & -> & E). cbn [rbind].
  rewrite construct_ok by auto. cbn [rbind]. exists (cells (set_cell (set_cell s b j (Live v)) a i (Live gone))). split; [done|].
  intros r k. rewrite !set_cell_at. unfold mv, inr. rewrite <- !Hm. clear -E Hj.
  destruct a, b, r; roles; cmp; same_cell.
Qed.
Lemma move_assign_ok s a i b j m : eqm (cells s) m -> alive s a = true -> alive s b = true -> raw (m a i) = false -> raw (m b j) = false -> (a <> b \/ i <> j) ->
  step s (move_assign gone s a i b j) (mv a i b j 1 m).
Proof.
  intros Hm Ha Hb Hi Hj Hc. rewrite <- Hm in Hi, Hj. unfold move_assign. destruct (get_ok s a i Ha Hi) as (v & -> & E). cbn [rbind].
  destruct (get_ok s b j Hb Hj) as (w & -> & E'). cbn [rbind]. exists (cells (set_cell (set_cell s b j (Live v)) a i (Live gone))). split; [done|].
  intros r k. rewrite !set_cell_at. unfold mv, inr. rewrite <- !Hm. clear -E Hc.
  destruct a, b, r; roles; cmp; try same_cell; destruct Hc; solve [congruence|lia].
Qed.
Lemma destroy_ok s r i m : eqm (cells s) m -> alive s r = true -> raw (m r i) = false -> step s (destroy s r i) (ds r i 1 m).
Proof.
  intros Hm Ha Hi. rewrite <- Hm in Hi. unfold destroy. destruct (get_ok s r i Ha Hi) as (v & -> & E). cbn [rbind].
  exists (cells (set_cell s r i Raw)). split; [done|]. intros r' k. rewrite !set_cell_at. unfold ds, inr. rewrite <- !Hm. clear -E.
  destruct r, r'; roles; cmp; same_cell.
Qed.
Lemma uninit_move_ok n : forall s a i b j m, eqm (cells s) m -> alive s a = true -> alive s b = true ->
  (forall k, i <= k < i + n -> raw (m a k) = false) -> (forall k, j <= k < j + n -> m b k = Raw) -> j + n <= cap s b ->
  step s (uninit_move gone n s a i b j) (mv a i b j n m).
Proof.
  induction n as [|n IH]; intros s a i b j m Hm Ha Hb Hi Hj Hc; cbn [uninit_move].
  - apply step_ret. intros r k. rewrite Hm. unfold mv, inr. cmp; by rewrite ?andb_false_r.
  - assert (Hij : a <> b \/ i + n < j \/ j + n < i).
    { destruct (decide (a = b)) as [->|]; [|by left]. right. destruct (decide (i + n < j)); [by left|]. destruct (decide (j + n < i)); [by right|].
      specialize (Hi (Nat.max i j) ltac:(lia)). by rewrite Hj in Hi by lia. }
    eapply step_bind; [apply (move_init_ok s a i b j m); auto; try lia; [apply Hi|apply Hj]; lia|]. intros x Hx.
    eapply step_eq; [apply (IH (with_cells s x)); cbn; eauto; try lia; try (destruct Hij; [by left|right; lia])|].
    + intros k Hk. unfold mv, inr. specialize (Hi k ltac:(lia)). clear -Hi Hij Hk. destruct a, b; roles; cmp; try done; destruct Hij; solve [congruence|lia].
    + intros k Hk. unfold mv, inr. specialize (Hj k ltac:(lia)). clear -Hj Hij Hk. destruct a, b; roles; cmp; try done; destruct Hij; solve [congruence|lia].
    + intros r k. unfold mv, inr. clear -Hij. destruct a, b, r; roles; cmp; try same_cell; destruct Hij; solve [congruence|lia].
Qed.
Lemma move_fwd_ok n : forall s a i b j m, eqm (cells s) m -> alive s a = true -> alive s b = true -> a <> b \/ j < i ->
  (forall k, i <= k < i + n -> raw (m a k) = false) -> (forall k, j <= k < j + n -> raw (m b k) = false) ->
  step s (move_fwd gone n s a i b j) (mv a i b j n m).
Proof.
  induction n as [|n IH]; intros s a i b j m Hm Ha Hb Hij Hi Hj; cbn [move_fwd].
  - apply step_ret. intros r k. rewrite Hm. unfold mv, inr. cmp; by rewrite ?andb_false_r.
  - eapply step_bind; [apply (move_assign_ok s a i b j m); auto; [apply Hi; lia|apply Hj; lia|destruct Hij; [by left|right; lia]]|]. intros x Hx.
    eapply step_eq; [apply (IH (with_cells s x)); cbn; eauto; try lia; try (destruct Hij; [by left|right; lia])|].
    + intros k Hk. unfold mv, inr. pose proof (Hi i ltac:(lia)). specialize (Hi k ltac:(lia)). clear -Hi H Hij Hk. destruct a, b; roles; cmp; try done; by replace (i + _) with i by lia.
    + intros k Hk. unfold mv, inr. specialize (Hj k ltac:(lia)). clear -Hj Hij Hk. destruct a, b; roles; cmp; try done.
    + intros r k. unfold mv, inr. clear -Hij. destruct a, b, r; roles; cmp; try same_cell; destruct Hij; solve [congruence|lia].
Qed.
Lemma move_back_ok n : forall s a i b j m, eqm (cells s) m -> alive s a = true -> alive s b = true -> a <> b \/ i < j ->
  (forall k, i <= k < i + n -> raw (m a k) = false) -> (forall k, j <= k < j + n -> raw (m b k) = false) ->
  step s (move_back gone n s a i b j) (mv a i b j n m).
Proof.
  induction n as [|n IH]; intros s a i b j m Hm Ha Hb Hij Hi Hj; cbn [move_back].
  - apply step_ret. intros r k. rewrite Hm. unfold mv, inr. cmp; by rewrite ?andb_false_r.
  - eapply step_bind; [apply (move_assign_ok s a (i + n) b (j + n) m); auto; [apply Hi; lia|apply Hj; lia|destruct Hij; [by left|right; lia]]|]. intros x Hx.
    eapply step_eq; [apply (IH (with_cells s x)); cbn; eauto; try lia; try (destruct Hij; [by left|right; lia])|].
    + intros k Hk. unfold mv, inr. specialize (Hi k ltac:(lia)). clear -Hi Hij Hk. destruct a, b; roles; cmp; try done; destruct Hij; solve [congruence|lia].
    + intros k Hk. unfold mv, inr. specialize (Hj k ltac:(lia)). clear -Hj Hij Hk. destruct a, b; roles; cmp; try done; destruct Hij; solve [congruence|lia].
    + intros r k. unfold mv, inr. clear -Hij. destruct a, b, r; roles; cmp; try same_cell; destruct Hij; solve [congruence|lia].
Qed.
Lemma destroy_n_ok n : forall s r i m, eqm (cells s) m -> alive s r = true -> (forall k, i <= k < i + n -> raw (m r k) = false) ->
  step s (destroy_n n s r i) (ds r i n m).
Proof.
  induction n as [|n IH]; intros s r i m Hm Ha Hi; cbn [destroy_n].
  - apply step_ret. intros r' k. rewrite Hm. unfold ds, inr. cmp; by rewrite ?andb_false_r.
  - eapply step_bind; [apply (destroy_ok s r i m); auto; apply Hi; lia|]. intros x Hx.
    eapply step_eq; [apply (IH (with_cells s x)); cbn; eauto|].
    + intros k Hk. unfold ds, inr. rewrite is_refl. specialize (Hi k ltac:(lia)). cmp. done.
    + intros r' k. unfold ds, inr. destruct r, r'; roles; cmp; same_cell.
Qed.

(** ** what the loops over children do *)
Definition km (clr : bool) a i b j n (g : role -> nat -> option C) : role -> nat -> option C := fun r k =>
  if is r b && inr k j n then g a (i + (k - j)) else if clr && (is r a && inr k i n) then None else g r k.
Definition eqk (g g' : role -> nat -> option C) := forall r k, g r k = g' r k.
Definition lstep (init clr : bool) s a i b j n (g : role -> nat -> option C) (o : res st) := exists x y z, o = Ok (with_links s x y z) /\
  eqk x (km clr a i b j n g) /\
  (forall k c, i <= k < i + n -> g a k = Some c -> z c = j + (k - i) /\ y c = if init then b else par s c) /\
  (forall c, (forall k, i <= k < i + n -> g a k <> Some c) -> z c = pos s c /\ y c = par s c).
Lemma upd_at {A} (f : role -> A) r x r' : upd f r x r' = if is r' r then x else f r'.
Proof. by destruct r, r'. Qed.
Lemma updn_at {A} (f : nat -> A) k x k' : updn f k x k' = if k' =? k then x else f k'. Proof. reflexivity. Qed.
Lemma updc_at {A} (f : C -> A) c x c' : updc f c x c' = if decide (c' = c) then x else f c'.
Proof. unfold updc. case_bool_decide; by case_decide. Qed.
Lemma move_child_ok init clr s a i b j g c : eqk (kids s) g -> alive s a = true -> alive s b = true -> j <= kN -> a <> b \/ i <> j -> g a i = Some c ->
  exists x y z, move_child kN init clr s a i b j = Ok (with_links s x y z) /\ eqk x (km clr a i b j 1 g) /\
    z c = j /\ y c = (if init then b else par s c) /\ (forall c', c' <> c -> z c' = pos s c' /\ y c' = par s c').
Proof.
  intros Hg Ha Hb Hj Hne Hc. unfold move_child, child. rewrite Ha, Hg, Hc. cbn [of_option rbind].
  unfold init_child, set_child. rewrite Hb. replace (j <=? kN) with true by lia. cbn [andb rbind].
  destruct init, clr; cbn [rbind]; unfold clear_child; cbn [kids par pos with_links]; eexists _, _, _; (split; [unfold with_links; cbn; reflexivity|]).
  all: split; [intros r k; rewrite ?upd_at, ?updn_at; rewrite <- ?Hg in *; unfold km, inr; rewrite <- ?Hg; clear Ha Hb Hg Hj;
     destruct a, b, r; cbn [is andb]; rewrite ?upd_at, ?updn_at; cbn [is andb]; cmp; try same_cell; destruct Hne; solve [congruence|lia]|].
  all: rewrite !updc_at, !decide_True by done; split; [done|]; split; [done|]; intros c' Hc'; rewrite !updc_at, !decide_False by done; done.
Qed.
Lemma kids_fwd_ok init clr n : forall s a i b j g, eqk (kids s) g -> alive s a = true -> alive s b = true -> j + n <= S kN -> a <> b \/ j < i ->
  (forall k, i <= k < i + n -> g a k <> None) -> (forall k k', i <= k < i + n -> i <= k' < i + n -> g a k = g a k' -> k = k') ->
  lstep init clr s a i b j n g (kids_fwd kN init clr n s a i b j).
Proof.
  induction n as [|n IH]; intros s a i b j g Hg Ha Hb Hj Hij Hs Hd; cbn [kids_fwd].
  - exists (kids s), (par s), (pos s). split; [by destruct s|]. split; [|split; [intros; lia|done]].
    intros r k. rewrite Hg. unfold km, inr. cmp; by rewrite ?andb_false_r.
  - destruct (g a i) as [c|] eqn:Ec; [|by specialize (Hs i ltac:(lia))].
    destruct (move_child_ok init clr s a i b j g c) as (x & y & z & -> & Hx & Hz & Hy & Ho); auto; [lia|destruct Hij; [by left|right; lia]|]. cbn [rbind].
    assert (Hk : forall k, S i <= k < S i + n -> km clr a i b j 1 g a k = g a k).
    { intros k Hk. unfold km, inr. clear -Hij Hk. destruct a, b, clr; cbn [is andb]; cmp; try done; destruct Hij; solve [congruence|lia]. }
    destruct (IH (with_links s x y z) a (S i) b (S j) (km clr a i b j 1 g)) as (x' & y' & z' & -> & Hx' & Hm & Ho'); cbn; auto; try lia.
    { destruct Hij; [by left|right; lia]. }
    { intros k Hk'. rewrite Hk by lia. apply Hs. lia. }
    { intros k k' H1 H2. rewrite !Hk by lia. intros. apply Hd; auto; lia. }
    cbn [pos par with_links] in *. exists x', y', z'. split; [done|]. split; [|split].
    + intros r k. rewrite Hx'. unfold km, inr. clear -Hij. destruct a, b, r, clr; cbn [is andb]; cmp; try same_cell; destruct Hij; solve [congruence|lia].
    + intros k c' Hk' Hc'. destruct (decide (k = i)) as [->|].
      * assert (c' = c) as -> by congruence. destruct (Ho' c) as [-> ->].
        { intros k Hk2. rewrite Hk by lia. intros E. assert (k = i) by (apply Hd; [lia|lia|congruence]). lia. }
        split; [lia|done].
      * destruct (Hm k c') as [-> ->]; [lia|by rewrite Hk by lia|]. split; [lia|].
        destruct init; [done|]. apply Ho. intros ->. assert (k = i) by (apply Hd; [lia|lia|congruence]). lia.
    + intros c' Hc'. destruct (Ho' c') as [-> ->]; [intros k Hk2; rewrite Hk by lia; apply Hc'; lia|]. apply Ho. intros ->. by apply (Hc' i); [lia|].
Qed.
Lemma kids_back_ok init clr n : forall s a i b j g, eqk (kids s) g -> alive s a = true -> alive s b = true -> j + n <= S kN -> a <> b \/ i < j ->
  (forall k, i <= k < i + n -> g a k <> None) -> (forall k k', i <= k < i + n -> i <= k' < i + n -> g a k = g a k' -> k = k') ->
  lstep init clr s a i b j n g (kids_back kN init clr n s a i b j).
Proof.
  induction n as [|n IH]; intros s a i b j g Hg Ha Hb Hj Hij Hs Hd; cbn [kids_back].
  - exists (kids s), (par s), (pos s). split; [by destruct s|]. split; [|split; [intros; lia|done]].
    intros r k. rewrite Hg. unfold km, inr. cmp; by rewrite ?andb_false_r.
  - destruct (g a (i + n)) as [c|] eqn:Ec; [|by specialize (Hs (i + n) ltac:(lia))].
    destruct (move_child_ok init clr s a (i + n) b (j + n) g c) as (x & y & z & -> & Hx & Hz & Hy & Ho); auto; [lia|destruct Hij; [by left|right; lia]|]. cbn [rbind].
    assert (Hk : forall k, i <= k < i + n -> km clr a (i + n) b (j + n) 1 g a k = g a k).
    { intros k Hk. unfold km, inr. clear -Hij Hk. destruct a, b, clr; cbn [is andb]; cmp; try done; destruct Hij; solve [congruence|lia]. }
    destruct (IH (with_links s x y z) a i b j (km clr a (i + n) b (j + n) 1 g)) as (x' & y' & z' & -> & Hx' & Hm & Ho'); cbn; auto; try lia.
    { intros k Hk'. rewrite Hk by lia. apply Hs. lia. }
    { intros k k' H1 H2. rewrite !Hk by lia. intros. apply Hd; auto; lia. }
    cbn [pos par with_links] in *. exists x', y', z'. split; [done|]. split; [|split].
    + intros r k. rewrite Hx'. unfold km, inr. clear -Hij. destruct a, b, r, clr; cbn [is andb]; cmp; try same_cell; destruct Hij; solve [congruence|lia].
    + intros k c' Hk' Hc'. destruct (decide (k = i + n)) as [->|].
      * assert (c' = c) as -> by congruence. destruct (Ho' c) as [-> ->].
        { intros k Hk2. rewrite Hk by lia. intros E. assert (k = i + n) by (apply Hd; [lia|lia|congruence]). lia. }
        split; [lia|done].
      * destruct (Hm k c') as [-> ->]; [lia|by rewrite Hk by lia|]. split; [lia|].
        destruct init; [done|]. apply Ho. intros ->. assert (k = i + n) by (apply Hd; [lia|lia|congruence]). lia.
    + intros c' Hc'. destruct (Ho' c') as [-> ->]; [intros k Hk2; rewrite Hk by lia; apply Hc'; lia|]. apply Ho. intros ->. by apply (Hc' (i + n)); [lia|].
Qed.
End Facts.
