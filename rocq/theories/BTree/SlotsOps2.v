(** Removing values from a node, merging two nodes, swapping two leaves, growing a leaf that is the root. *)
From stdpp Require Import list.
From Coq Require Import Arith Lia ZifyBool ZifyNat.
From Verif.Common Require Import Res.
From Verif.BTree Require Import Slots SlotsFacts SlotsOps.
Local Open Scope nat_scope.
Local Open Scope res_scope.

Ltac cmp := repeat match goal with
  | |- context [?a =? ?b] => destruct (Nat.eqb_spec a b); try lia
  | |- context [?a <? ?b] => destruct (Nat.ltb_spec a b); try lia
  | |- context [?a <=? ?b] => destruct (Nat.leb_spec a b); try lia
  end; cbn [andb orb negb].
Ltac at_done := first
  [ reflexivity | lia
  | apply at_lt; lia
  | apply at_ge; lia
  | symmetry; apply at_ge; lia
  | rewrite !at_ge by lia; reflexivity
  | match goal with |- at_ ?l ?x = at_ ?l ?y => replace y with x by lia; reflexivity end
  | match goal with H : ?l !! ?k = Some _ |- at_ ?l ?e = _ => replace e with k by lia; rewrite (at_some _ _ _ H); reflexivity end
  | match goal with H : ?l !! ?k = Some _ |- _ = at_ ?l ?e => replace e with k by lia; rewrite (at_some _ _ _ H); reflexivity end ].
Ltac slot := unfold mv, ds, inr; unfold mem; cbn [is andb three];
  repeat first [rewrite at_take | rewrite at_drop | rewrite at_app | rewrite at_cons]; rewrite ?at_nil, ?take_length;
  repeat match goal with |- context [at_ (<[?p:=?x]> ?l) ?k] => rewrite (at_insert p x l k) by lia end; cmp; at_done.
Ltac lk_done := first [reflexivity | lia | apply lk_lt; lia | apply lk_ge; lia | symmetry; apply lk_ge; lia | rewrite !lk_ge by lia; reflexivity
  | match goal with |- ?l !! ?x = ?l !! ?y => replace y with x by lia; reflexivity end
  | match goal with H : ?l !! ?k = Some _ |- ?l !! ?e = _ => replace e with k by lia; exact H end
  | match goal with H : ?l !! ?k = Some _ |- _ = ?l !! ?e => replace e with k by lia; symmetry; exact H end ].
Ltac link := unfold km, inr; unfold lk; cbn [is andb three]; repeat first [rewrite lk_take | rewrite lookup_drop | rewrite lk_app | rewrite lk_cons]; rewrite ?lookup_nil, ?take_length; cmp; lk_done.
Ltac side := try solve [assumption | match goal with Ha : forall r, alive _ r = true |- _ => exact (Ha _) end | intros k Hk; slot | slot | cbn [cap with_cells]; lia | left; discriminate | right; lia].
Ltac lside := try solve [assumption | match goal with Ha : forall r, alive _ r = true |- _ => exact (Ha _) end | lia | left; discriminate | right; lia | reflexivity | intros ?; discriminate | intros k Hk; link].
Ltac nx L x H := let E := fresh in edestruct L as (x & E & H); [side..|rewrite E; clear E; rewrite ?with_with; cbn [rbind]].

Global Arguments g_cnt {V C kN lone s f g}.
Global Arguments g_cells {V C kN lone s f g}.
Global Arguments g_alive {V C kN lone s f g}.
Global Arguments g_cap {V C kN lone s f g}.
Global Arguments g_inner {V C kN lone s f g}.
Global Arguments g_len {V C kN lone s f g}.
Global Arguments g_kids {V C kN lone s f g}.

Section Ops2.
Context {V C : Type} `{EqDecision C} (gone : V) (kN : nat).
Notation st := (st V C).
Notation cell := (cell V).
Notation good_ := (good_ kN).
Notation good := (good_ false).
Implicit Types (s : st) (a b r : role) (i j k n p : nat) (v d : V) (c : C) (f : role -> list V) (g : role -> list C).

(** ** removing values *)
Definition gone_from r i n vs m : role -> nat -> cell := fun r' k => if is r' r then at_ (take i vs ++ drop (i + n) vs) k else m r' k.
Lemma remove_values_ok s r i n vs m : eqm (cells s) m -> (forall k, m r k = at_ vs k) -> alive s r = true -> cnt s r = length vs -> 1 <= n -> i + n <= length vs ->
  exists x, remove_values_ignore_children gone s r i n = Ok (set_cnt (with_cells s x) r (length vs - n)) /\ eqm x (gone_from r i n vs m).
Proof.
  intros Hm Hv Ha Hc Hn Hi. unfold remove_values_ignore_children. rewrite Hc.
  assert (Ha' : forall x, alive (with_cells s x) r = true) by (intros; exact Ha).
  destruct (move_fwd_ok gone (length vs - (i + n)) s r (i + n) r i m) as (x1 & -> & H1); auto; [right; lia|intros k Hk; rewrite Hv; apply at_lt; lia..|]. cbn [rbind].
  destruct (destroy_n_ok n (with_cells s x1) r (length vs - n) _ H1) as (x2 & -> & H2); auto.
  { intros k Hk. unfold mv, inr. rewrite is_refl, !Hv. cbn [andb]. cmp; at_done. }
  cbn [rbind]. rewrite with_with. exists x2. split; [done|]. intros r' k. rewrite H2. unfold ds, mv, gone_from, inr. destruct (is r' r) eqn:E; [|by cbn [andb]].
  apply is_true in E; subst r'. rewrite !Hv. cbn [andb]. repeat first [rewrite at_take | rewrite at_drop | rewrite at_app]. rewrite take_length. cmp; at_done.
Qed.
Definition kid_gone r i (ks : list C) G : role -> nat -> option C := fun r' k => if is r' r then (if k <=? i then ks !! k else ks !! S k) else G r' k.
Lemma clear_child_links s r k G : klinks s G -> G r k = None -> exists xk, clear_child s r k = with_links s xk (par s) (pos s) /\ klinks (with_links s xk (par s) (pos s)) G.
Proof.
  intros HG Hn. eexists. split; [reflexivity|]. intros r' k' c Hc. cbn. destruct (HG r' k' c Hc) as (H1 & H2 & H3). split; [|done].
  rewrite upd_at. destruct (is r' r) eqn:E; [|done]. apply is_true in E; subst r'. rewrite updn_at. destruct (Nat.eqb_spec k' k); [congruence|]. by subst.
Qed.
Lemma links_sub s G o G1 G2 : links s G o G1 -> (forall r k c, G2 r k = Some c -> G1 r k = Some c) -> links s G o G2.
Proof. intros (x & y & z & E & H1 & H2) H. exists x, y, z. split; [done|]. split; [|done]. intros r k c Hc. apply H1, H, Hc. Qed.
Lemma links_clear s G o r k G1 : links s G o G1 -> G1 r k = None -> links s G (let* s := o in Ok (clear_child s r k)) G1.
Proof.
  intros (x & y & z & -> & H1 & H2) Hn. cbn [rbind]. destruct (clear_child_links (with_links s x y z) r k G1 H1 Hn) as (xk & -> & H3).
  exists xk, y, z. split; [done|]. split; [exact H3|done].
Qed.
Lemma remove_value_ok s r i vs ks m G : eqm (cells s) m -> (forall k, m r k = at_ vs k) -> alive s r = true -> cnt s r = length vs -> i < length vs <= kN ->
  klinks s G -> (forall k, G r k = ks !! k) -> length ks = (if inner s r then S (length vs) else 0) ->
  exists x xk yk zk, remove_value gone kN s r i = Ok (mkSt x xk yk zk (upd (cnt s) r (length vs - 1)) (cap s) (inner s) (alive s) (nid s)) /\
    eqm x (gone_from r i 1 vs m) /\ klinks (with_links s xk yk zk) (kid_gone r i ks G) /\ (forall c, (forall r k, G r k <> Some c) -> zk c = pos s c /\ yk c = par s c).
Proof.
  intros Hm Hv Ha Hc Hi HG Hks Hl. unfold remove_value. rewrite Hc.
  match goal with |- exists x xk yk zk, (let* s0 := ?o in _) = _ /\ _ => assert (Hlk : links s G o (kid_gone r i ks G)) end.
  { destruct (inner s r && (i + 1 <? length vs)) eqn:E.
    - apply andb_true_iff in E as [E1 E2]. rewrite E1 in Hl. apply links_clear.
      + eapply links_eq; [apply (kids_fwd_links kN false false s r (i + 2) r (i + 1) _ G); auto; [lia|right; lia|]|].
        * intros k Hk. rewrite Hks. apply lk_lt. lia.
        * intros r' k. unfold km, kid_gone, inr. destruct (is r' r) eqn:E; [|by cbn [andb]]. apply is_true in E; subst r'. rewrite !Hks. cbn [andb]. cmp; lk_done.
      + unfold kid_gone. rewrite is_refl. cmp; lk_done.
    - eapply links_sub; [by apply links_ret|]. intros r' k c. unfold kid_gone. destruct (is r' r) eqn:E1; [|done]. apply is_true in E1; subst r'. rewrite Hks.
      cmp; [done|]. intros Hc'. apply lookup_lt_Some in Hc'. destruct (inner s r); cbn [andb] in E; lia. }
  destruct Hlk as (xk & yk & zk & -> & HG' & Hfr). cbn [rbind].
  destruct (remove_values_ok (with_links s xk yk zk) r i 1 vs m) as (x & -> & Hx); auto; [lia|]. exists x, xk, yk, zk. split; [reflexivity|]. split; [done|]. split; [exact HG'|exact Hfr].
Qed.

(** ** erase_same_node *)
Definition kids_gone r i n (ks : list C) G : role -> nat -> option C := fun r' k => if is r' r then (if k <=? i then ks !! k else ks !! (k + n)) else G r' k.
Lemma read_kids_ok n s r k ks : (forall j c, ks !! j = Some c -> kids s r j = Some c) -> alive s r = true -> k + n <= length ks -> read_kids n s r k = Ok (take n (drop k ks)).
Proof.
  intros Hk Ha. revert k. induction n as [|n IH]; intros k Hl; cbn [read_kids]; [done|].
  destruct (lookup_lt_is_Some_2 ks k) as [c E]; [lia|]. unfold child. rewrite Ha, (Hk _ _ E). cbn [rbind]. rewrite IH by lia. cbn [rbind].
  by rewrite (drop_S _ _ _ E).
Qed.
Theorem erase_same_node_ok s r i n vs ks m G : eqm (cells s) m -> (forall k, m r k = at_ vs k) -> alive s r = true -> cnt s r = length vs -> 1 <= n -> i + n <= length vs <= kN ->
  klinks s G -> (forall k, G r k = ks !! k) -> length ks = (if inner s r then S (length vs) else 0) ->
  exists x xk yk zk, erase_same_node gone kN s r i n = Ok (mkSt x xk yk zk (upd (cnt s) r (length vs - n)) (cap s) (inner s) (alive s) (nid s), take n (drop (S i) ks)) /\
    eqm x (gone_from r i n vs m) /\ klinks (with_links s xk yk zk) (kids_gone r i n ks G) /\ (forall c, (forall r k, G r k <> Some c) -> zk c = pos s c /\ yk c = par s c).
Proof.
  intros Hm Hv Ha Hc Hn Hi HG Hks Hl. unfold erase_same_node. rewrite Hc.
  match goal with |- exists x xk yk zk, (let* x0 := ?o in _) = _ /\ _ => assert (Hlk : exists o', links s G o' (kids_gone r i n ks G) /\ o = (let* s1 := o' in Ok (s1, take n (drop (S i) ks)))) end.
  { destruct (inner s r) eqn:E.
    - exists (kids_fwd kN false true (length vs - (i + n)) s r (i + n + 1) r (i + 1)). split.
      + eapply links_sub; [apply (kids_fwd_links kN false true s r (i + n + 1) r (i + 1) _ G); auto; [lia|right; lia|]|].
        * intros k Hk. rewrite Hks. apply lk_lt. lia.
        * intros r' k c. unfold km, kids_gone, inr. destruct (is r' r) eqn:E1; [|by cbn [andb]]. apply is_true in E1; subst r'. rewrite !Hks. cbn [andb].
          intros Hc'. assert (k <= i \/ k + n < length ks) by (destruct (Nat.leb_spec k i); [by left|right; by apply lookup_lt_Some in Hc']).
          revert Hc'. cmp; intros <-; first [lk_done | f_equal; lia].
      + rewrite (read_kids_ok n s r (i + 1) ks); [|intros j c Hj; rewrite <- Hks in Hj; apply (HG _ _ _ Hj)|done|lia]. cbn [rbind]. by replace (S i) with (i + 1) by lia.
    - exists (Ok s). destruct ks; [|done]. split; [|by rewrite drop_nil, take_nil]. eapply links_eq; [by apply links_ret|]. intros r' k. unfold kids_gone.
      destruct (is r' r) eqn:E1; [|done]. apply is_true in E1; subst r'. rewrite Hks, !lookup_nil. by destruct (k <=? i). }
  destruct Hlk as (o' & (xk & yk & zk & -> & HG' & Hfr) & ->). cbn [rbind].
  destruct (remove_values_ok (with_links s xk yk zk) r i n vs m) as (x & -> & Hx); auto; [lia|]. cbn [rbind]. exists x, xk, yk, zk. split; [reflexivity|]. split; [done|]. split; [exact HG'|exact Hfr].
Qed.

(** ** merge *)
Theorem merge_ok s f g p d : good s f g -> siblings s g p -> f P !! p = Some d -> 1 + length (f L) + length (f R) <= cap s L ->
  exists s', merge gone kN s = Ok s' /\
    good_ true s' (three (f L ++ d :: f R) (take p (f P) ++ drop (S p) (f P)) []) (three (g L ++ g R) (take (S p) (g P) ++ drop (S (S p)) (g P)) []) /\ frame s s' g.
Proof.
  intros H Hp Hd Hcap. pose proof (sep_of kN _ _ _ _ H Hp) as Hsep. destruct (sep_val kN _ _ _ _ H Hp) as (Hp1 & Hp2 & _).
  pose proof (g_cells H) as Hm. pose proof (g_alive H) as Ha. pose proof (g_cnt H) as Hc.
  unfold merge. rewrite !Hc, Hsep. unfold sep in *.
  nx (move_init_ok gone s P p L (length (f L)) (mem f)) x1 H1.
  nx (uninit_move_ok gone (length (f R)) (with_cells s x1) R 0 L (length (f L) + 1) _ H1) x2 H2.
  nx (destroy_n_ok (length (f R)) (with_cells s x2) R 0 _ H2) x3 H3.
  set (s5 := with_cells s x3) in *.
  assert (HG : klinks s5 (lk g)) by apply (good_links kN _ _ _ _ H).
  pose proof (g_full kN _ _ _ H) as Hl. pose proof (g_cap H L) as HcL. pose proof (g_cap H R) as HcR. pose proof (g_cap H P) as HcP. destruct (g_inner H) as [HiP HiR].
  set (G1 := lk (three (g L ++ g R) (g P) [])).
  match goal with |- exists s', (let* s0 := ?o in _) = _ /\ _ => assert (Hlk : links s5 (lk g) o G1) end.
  { pose proof (Hl L) as HlL. pose proof (Hl R) as HlR. rewrite <- HiR in HlR. change (inner s5 L) with (inner s L). destruct (inner s L) eqn:EL.
    - eapply links_eq; [apply kids_fwd_links; lside|]. intros r k. unfold G1. destruct r; link.
    - eapply links_eq; [by apply links_ret|]. intros r k. unfold G1. destruct r; link. }
  destruct Hlk as (xk & yk & zk & E & Hk1 & Hk2). rewrite E. cbn [rbind].
  set (s6 := set_cnt _ _ _).
  assert (Hsep6 : pos s6 (nid s6 L) = p).
  { destruct Hp as [Hp _]. destruct (Hk1 P p (nid s L) Hp) as (_ & E6 & _). exact E6. }
  rewrite Hsep6.
  destruct (remove_value_ok s6 P p (<[p:=gone]> (f P)) (g P) _ G1 H3) as (x7 & xk7 & yk7 & zk7 & -> & H7 & Hk7 & Hf7).
  { intros k. slot. }
  { apply Ha. }
  { unfold s6, set_cnt. cbn [cnt]. rewrite !upd_at, insert_length. apply Hc. }
  { rewrite insert_length. lia. }
  { exact Hk1. }
  { done. }
  { change (inner s6 P) with (inner s P). rewrite Hl, insert_length. by rewrite HiP. }
  eexists. split; [reflexivity|].
  apply (good_intro kN false true s f g); auto.
  - intros r. unfold s6, set_cnt. cbn [cnt]. rewrite !upd_at, insert_length. destruct r; cbn [is three]; rewrite ?app_length, ?take_length, ?drop_length; cbn [length]; try lia.
  - intros r k. rewrite H7. unfold gone_from. rewrite take_insert by lia. rewrite drop_insert_gt by lia. destruct r; slot.
  - intros r. pose proof (g_cap H r). destruct r; cbn [three]; rewrite ?app_length, ?take_length, ?drop_length; cbn [length]; lia.
  - intros r. pose proof (Hl L) as HlL. pose proof (Hl R) as HlR. pose proof (Hl P) as HlP. rewrite HiP in HlP. rewrite <- HiR in HlR. destruct r; cbn [andb is three]; rewrite ?HiP;
      rewrite ?app_length, ?take_length, ?drop_length; cbn [length]; try destruct (inner s L); lia.
  - intros r k c Hk. apply Hk7. revert Hk. unfold kid_gone, G1. pose proof (Hl P) as HlP. rewrite HiP in HlP. destruct r; intros <-; link.
  - intros c Hcn. destruct (Hf7 c) as [-> ->].
    { intros r k. unfold G1, lk. destruct r; cbn [three]; [|apply (Hcn P)|done]. rewrite lk_app. destruct (k <? length (g L)); [apply (Hcn L)|apply (Hcn R)]. }
    apply (Hk2 c Hcn).
Qed.
End Ops2.
