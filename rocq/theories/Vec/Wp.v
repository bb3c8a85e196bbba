(** Weakest preconditions for the memory model, and what the element loops do to memory. *)
From stdpp Require Import gmap list infinite fin_map_dom.
From Coq Require Import NArith Lia.
From Verif.Common Require Import Word.
From Verif.Vec Require Import Model.
Local Open Scope nat_scope.

Set Default Proof Using "Type".

Definition at1 (l l' : loc) : bool := (l'.1 =? l.1) && (l'.2 =? l.2).
Definition rng (b i n : nat) (l : loc) : bool := (l.1 =? b) && (i <=? l.2) && (l.2 <? i + n).
Lemma rng_true b i n l : rng b i n l = true <-> l.1 = b /\ i <= l.2 /\ l.2 < i + n.
Proof. unfold rng. rewrite !andb_true_iff, Nat.eqb_eq, Nat.leb_le, Nat.ltb_lt. tauto. Qed.
Lemma at1_true l l' : at1 l l' = true <-> l' = l.
Proof. unfold at1. rewrite andb_true_iff, !Nat.eqb_eq. destruct l, l'; cbn [fst snd]. split; [intros [-> ->]; reflexivity|intros [= -> ->]; auto]. Qed.

Definition orelse {A B} (f g : A -> option B) (a : A) : option B := match f a with Some b => Some b | None => g a end.
Lemma take_S_snoc {A} (xs : list A) k x : xs !! k = Some x -> take (S k) xs = take k xs ++ [x].
Proof. apply take_S_r. Qed.

Section Wp.
Context {V : Type} (tr : traits) (moved : V -> V) (dflt : V).
Notation heap := (gmap nat (list (@cell V))).
Notation M := (@M V).
Implicit Types (h : heap) (rg : list vec) (E : heap -> list vec -> Prop).
Notation post A := (A -> heap -> list vec -> Prop).
Notation "x <- m ;; k" := (bind m (fun x => k)) (at level 100, m at next level, right associativity).
Notation "m ;;; k" := (bind m (fun _ => k)) (at level 100, right associativity).

(** [m] never goes wrong; a normal end satisfies [Q], an exception [E], whatever may throw *)
Definition wp {A} (m : M A) (Q : A -> heap -> list vec -> Prop) (E : heap -> list vec -> Prop) h rg : Prop :=
  forall o, match m (mkW h rg o) with
            | Ret a w => Q a (w_heap w) (w_regs w)
            | Thr w => E (w_heap w) (w_regs w)
            | Wrong => False
            end.
Definition nothrow : heap -> list vec -> Prop := fun _ _ => False.

Lemma wp_ret {A} (a : A) (Q : post A) E h rg : Q a h rg -> wp (ret a) Q E h rg.
Proof. intros H o. exact H. Qed.
Lemma wp_bind {A B} (m : M A) (k : A -> M B) (Q : post B) E h rg : wp m (fun a h' rg' => wp (k a) Q E h' rg') E h rg -> wp (bind m k) Q E h rg.
Proof.
  intros H o. specialize (H o). unfold bind. destruct (m (mkW h rg o)) as [a w|w|]; [|exact H|exact H].
  specialize (H (w_orc w)). destruct w. exact H.
Qed.
Lemma wp_mono {A} (m : M A) (Q Q' : A -> heap -> list vec -> Prop) (E E' : heap -> list vec -> Prop) h rg :
  wp m Q E h rg -> (forall a h' rg', Q a h' rg' -> Q' a h' rg') -> (forall h' rg', E h' rg' -> E' h' rg') -> wp m Q' E' h rg.
Proof. intros H HQ HE o. specialize (H o). destruct (m (mkW h rg o)); auto. Qed.
Lemma wp_guarded {A} (m : M A) c (Q : post A) E h rg :
  wp m Q (fun h' rg' => wp c (fun _ => E) nothrow h' rg') h rg -> wp (guarded m c) Q E h rg.
Proof.
  intros H o. specialize (H o). unfold guarded. destruct (m (mkW h rg o)) as [a w|w|]; [exact H| |exact H].
  specialize (H (w_orc w)). destruct w as [h' rg' o']. cbn [w_heap w_regs w_orc] in H. destruct (c (mkW h' rg' o')); [exact H|destruct H|exact H].
Qed.
Lemma wp_catch {A} (m : M A) c (Q : post A) E h rg :
  wp m Q (fun h' rg' => wp c Q E h' rg') h rg -> wp (catch m c) Q E h rg.
Proof.
  intros H o. specialize (H o). unfold catch. destruct (m (mkW h rg o)) as [a w|w|]; [exact H| |exact H].
  specialize (H (w_orc w)). destruct w as [h' rg' o']. exact H.
Qed.
Lemma wp_may_throw can (Q : post unit) E h rg : Q tt h rg -> (can = true -> E h rg) -> wp (may_throw can) Q E h rg.
Proof. intros H1 H2 o. unfold may_throw. destruct can; [|exact H1]. destruct o as [|[] o]; cbn; auto. Qed.
Lemma wp_get r v (Q : post vec) E h rg : rg !! r = Some v -> Q v h rg -> wp (get r) Q E h rg.
Proof. intros Hr H o. unfold get. cbn [w_heap w_regs w_orc]. rewrite Hr. exact H. Qed.
Lemma wp_set r v v' (Q : post unit) E h rg : rg !! r = Some v' -> Q tt h (<[r := v]> rg) -> wp (set r v) Q E h rg.
Proof. intros Hr H o. unfold set. cbn [w_heap w_regs w_orc]. rewrite Hr. exact H. Qed.
Lemma wp_peek b i cs c (Q : post (@cell V)) E h rg : h !! b = Some cs -> cs !! i = Some c -> Q c h rg -> wp (peek (b, i)) Q E h rg.
Proof. intros H1 H2 H o. unfold peek. cbn [w_heap w_regs w_orc fst snd]. rewrite H1, H2. exact H. Qed.
Lemma wp_poke b i cs c (Q : post unit) E h rg : h !! b = Some cs -> i < length cs -> Q tt (<[b := <[i := c]> cs]> h) rg -> wp (poke (b, i) c) Q E h rg.
Proof. intros H1 H2 H o. unfold poke. cbn [w_heap w_regs w_orc fst snd]. rewrite H1. destruct (decide (i < length cs)); [exact H|contradiction]. Qed.
Lemma wp_skip (Q : post unit) E h rg : Q tt h rg -> wp (@skip V) Q E h rg.
Proof. apply wp_ret. Qed.

(** loops *)
Lemma wp_for_up n : forall i body (I : nat -> heap -> list vec -> Prop) E h rg,
  (forall k h rg, i <= k -> k < i + n -> I k h rg -> wp (body k) (fun _ => I (S k)) E h rg) ->
  I i h rg -> wp (for_up n i body) (fun _ => I (i + n)) E h rg.
Proof.
  induction n as [|n IH]; intros i body I E h rg Hb Hi; cbn [for_up].
  - apply wp_skip. rewrite Nat.add_0_r. assumption.
  - apply wp_bind. eapply wp_mono; [apply Hb; [lia|lia|assumption]|cbn beta|auto].
    intros _ h' rg' HI. replace (i + S n) with (S i + n) by lia. apply IH; [|assumption]. intros k h2 rg2 K1 K2. apply Hb; lia.
Qed.
Lemma wp_for_down n : forall body (I : nat -> heap -> list vec -> Prop) E h rg,
  (forall k h rg, k < n -> I (S k) h rg -> wp (body k) (fun _ => I k) E h rg) ->
  I n h rg -> wp (for_down n body) (fun _ => I 0) E h rg.
Proof.
  induction n as [|n IH]; intros body I E h rg Hb Hi; cbn [for_down]; [apply wp_skip; assumption|].
  apply wp_bind. eapply wp_mono; [apply Hb; [lia|assumption]|cbn beta|auto]. intros _ h' rg' HI. apply IH; [|assumption]. intros k h2 rg2 K. apply Hb. lia.
Qed.
Lemma wp_for_guard n : forall i body cleanup (I : nat -> heap -> list vec -> Prop) E h rg,
  (forall k h rg, i <= k -> k < i + n -> I k h rg -> wp (body k) (fun _ => I (S k)) (fun h' rg' => wp (cleanup k) (fun _ => E) nothrow h' rg') h rg) ->
  I i h rg -> wp (for_guard n i body cleanup) (fun _ => I (i + n)) E h rg.
Proof.
  induction n as [|n IH]; intros i body cleanup I E h rg Hb Hi; cbn [for_guard].
  - apply wp_skip. rewrite Nat.add_0_r. assumption.
  - apply wp_bind, wp_guarded. eapply wp_mono; [apply Hb; [lia|lia|assumption]|cbn beta|auto].
    intros _ h' rg' HI. replace (i + S n) with (S i + n) by lia. apply IH; [|assumption]. intros k h2 rg2 K1 K2. apply Hb; lia.
Qed.

(** ** memory, cell by cell *)
Definition cellat h (l : loc) : option cell := match h !! l.1 with Some cs => cs !! l.2 | None => None end.
(** [h'] is [h] with the cells where [f] answers replaced *)
Definition hov h h' (f : loc -> option cell) : Prop :=
  forall b, match h !! b with
            | None => h' !! b = None
            | Some cs => exists cs', h' !! b = Some cs' /\ length cs' = length cs /\
                forall i, i < length cs -> cs' !! i = match f (b, i) with Some c => Some c | None => cs !! i end
            end.
Lemma hov_refl h f : (forall l, f l = None) -> hov h h f.
Proof. intros Hf b. destruct (h !! b) as [cs|] eqn:E; [|reflexivity]. exists cs. repeat split. intros i Hi. rewrite Hf. reflexivity. Qed.
Lemma hov_ext h h' f g : hov h h' f -> (forall l c, cellat h l = Some c -> match f l with Some c' => c' | None => c end = match g l with Some c' => c' | None => c end) -> hov h h' g.
Proof.
  intros H Hfg b. specialize (H b). specialize (Hfg : forall l c, _). destruct (h !! b) as [cs|] eqn:E; [|exact H].
  destruct H as (cs' & H1 & H2 & H3). exists cs'. split; [assumption|]. split; [assumption|]. intros i Hi. rewrite H3 by assumption.
  destruct (lookup_lt_is_Some_2 cs i Hi) as [c Hc]. specialize (Hfg (b, i) c). unfold cellat in Hfg. cbn [fst snd] in Hfg. rewrite E in Hfg. specialize (Hfg Hc).
  rewrite Hc. destruct (f (b, i)), (g (b, i)); congruence.
Qed.
Lemma hov_none h h' f : hov h h' f -> (forall l c, cellat h l = Some c -> f l = None \/ f l = Some c) -> h' = h.
Proof.
  intros H Hf. apply map_eq. intros b. specialize (H b). destruct (h !! b) as [cs|] eqn:E; [|assumption].
  destruct H as (cs' & -> & Hl & Hc). f_equal. apply list_eq. intros i. destruct (Nat.lt_ge_cases i (length cs)) as [Hi|Hi].
  - rewrite Hc by assumption. destruct (lookup_lt_is_Some_2 cs i Hi) as [c Hci]. specialize (Hf (b, i) c). unfold cellat in Hf. cbn [fst snd] in Hf.
    rewrite E in Hf. destruct (Hf Hci) as [->| ->]; congruence.
  - rewrite !lookup_ge_None_2 by lia. reflexivity.
Qed.
Lemma hov_trans h h1 h2 f g : hov h h1 f -> hov h1 h2 g -> hov h h2 (fun l => match g l with Some c => Some c | None => f l end).
Proof.
  intros H1 H2 b. specialize (H1 b). specialize (H2 b). destruct (h !! b) as [cs|]; [|rewrite H1 in H2; exact H2].
  destruct H1 as (cs1 & E1 & L1 & C1). rewrite E1 in H2. destruct H2 as (cs2 & E2 & L2 & C2). exists cs2. split; [assumption|]. split; [lia|].
  intros i Hi. rewrite C2 by lia. destruct (g (b, i)); [reflexivity|]. apply C1. assumption.
Qed.
Lemma hov_cell h h' f l : hov h h' f -> cellat h' l = match cellat h l with Some c => Some (match f l with Some c' => c' | None => c end) | None => None end.
Proof.
  intros H. specialize (H l.1). unfold cellat. destruct l as [b i]. cbn [fst snd] in *. destruct (h !! b) as [cs|]; [|rewrite H; reflexivity].
  destruct H as (cs' & -> & Hl & Hc). destruct (Nat.lt_ge_cases i (length cs)) as [Hi|Hi].
  - rewrite Hc by assumption. destruct (lookup_lt_is_Some_2 cs i Hi) as [c Hci]. rewrite Hci. destruct (f (b, i)); reflexivity.
  - rewrite !lookup_ge_None_2 by lia. reflexivity.
Qed.
Lemma hov_insert b i c cs h : h !! b = Some cs -> i < length cs -> hov h (<[b := <[i := c]> cs]> h) (fun l => if (l.1 =? b) && (l.2 =? i) then Some c else None).
Proof.
  intros Hb Hi b'. destruct (decide (b = b')) as [<-|Hne].
  - rewrite Hb, lookup_insert. eexists. split; [reflexivity|]. split; [apply insert_length|]. intros k Hk. cbn [fst snd]. rewrite Nat.eqb_refl. cbn [andb].
    destruct (Nat.eqb_spec k i) as [->|Hki]; [apply list_lookup_insert; assumption|apply list_lookup_insert_ne; congruence].
  - rewrite lookup_insert_ne by assumption. destruct (h !! b') as [cs'|]; [|reflexivity]. exists cs'. repeat split. intros k Hk. cbn [fst snd].
    destruct (Nat.eqb_spec b' b); [congruence|reflexivity].
Qed.
Lemma cellat_inv h b i c : cellat h (b, i) = Some c -> exists cs, h !! b = Some cs /\ cs !! i = Some c /\ i < length cs.
Proof. unfold cellat. cbn [fst snd]. destruct (h !! b) as [cs|]; [|discriminate]. intros H. exists cs. split; [reflexivity|]. split; [assumption|]. apply lookup_lt_Some in H. assumption. Qed.

Lemma wp_peek_c l c (Q : post (@cell V)) E h rg : cellat h l = Some c -> Q c h rg -> wp (peek l) Q E h rg.
Proof. intros H HQ. destruct l as [b i]. apply cellat_inv in H as (cs & H1 & H2 & _). eapply wp_peek; eassumption. Qed.
Lemma wp_poke_c l c c0 (Q : post unit) E h rg : cellat h l = Some c0 ->
  (forall h', hov h h' (fun l' => if (l'.1 =? l.1) && (l'.2 =? l.2) then Some c else None) -> Q tt h' rg) -> wp (poke l c) Q E h rg.
Proof. intros H HQ. destruct l as [b i]. apply cellat_inv in H as (cs & H1 & H2 & H3). eapply wp_poke; [eassumption|assumption|]. apply HQ. apply hov_insert; assumption. Qed.
Lemma wp_read l v (Q : post V) E h rg : cellat h l = Some (Live v) -> Q v h rg -> wp (read l) Q E h rg.
Proof. intros H HQ. unfold read. apply wp_bind. eapply wp_peek_c; [eassumption|]. apply wp_ret. assumption. Qed.

(** storage where an object may be constructed *)
Definition avail (c : @cell V) : Prop := t_triv tr = true \/ c = Raw.
(** an object may be assigned to *)
Definition assignable (c : @cell V) : Prop := t_triv tr = true \/ exists v, c = Live v.
(** the value an argument denotes *)
Definition aval h (a : @arg V) (x : V) : Prop := match a with Val v => v = x | Ref l => cellat h l = Some (Live x) end.
Definition asrc (a : @arg V) (mv : bool) (x : V) (l' : loc) : option cell :=
  match a with Ref l => if mv && at1 l l' then Some (Live (mvd tr moved x)) else None | Val _ => None end.

Lemma wp_take_arg a mv x (Q : post V) E h rg : aval h a x -> (forall h', hov h h' (asrc a mv x) -> Q x h' rg) -> wp (take_arg tr moved a mv) Q E h rg.
Proof.
  intros Ha HQ. destruct a as [v|l]; cbn [take_arg aval asrc] in *.
  - subst x. apply wp_ret, HQ. apply hov_refl. reflexivity.
  - apply wp_bind. eapply wp_read; [eassumption|]. apply wp_bind. destruct mv; cbn [andb] in HQ.
    + eapply wp_poke_c; [eassumption|]. intros h' Hh'. apply wp_ret, HQ. exact Hh'.
    + apply wp_skip, wp_ret, HQ, hov_refl. reflexivity.
Qed.
Definition con_f (l : loc) (a : @arg V) (mv : bool) (x : V) (l' : loc) : option cell :=
  if at1 l l' then Some (Live x) else asrc a mv x l'.
Lemma wp_construct l a mv x c (Q : post unit) E h rg : cellat h l = Some c -> avail c -> aval h a x ->
  (forall h', hov h h' (con_f l a mv x) -> Q tt h' rg) ->
  ((if mv then move_throws tr else copy_throws tr) = true -> E h rg) ->
  wp (construct tr moved l a mv) Q E h rg.
Proof.
  intros Hc Hav Ha HQ HE. unfold construct. apply wp_bind. eapply wp_peek_c; [eassumption|]. apply wp_bind.
  assert (S1 : forall P : Prop, P -> P) by auto.
  assert (G : wp (may_throw (if mv then move_throws tr else copy_throws tr) ;;; v <- take_arg tr moved a mv ;; poke l (Live v)) Q E h rg).
  { apply wp_bind, wp_may_throw; [|assumption]. apply wp_bind. eapply wp_take_arg; [eassumption|]. intros h1 H1.
    eapply wp_poke_c.
    - rewrite (hov_cell _ _ _ _ H1), Hc. reflexivity.
    - intros h2 H2. apply HQ. pose proof (hov_trans _ _ _ _ _ H1 H2) as H3. eapply hov_ext; [exact H3|]. intros l' c' _. unfold con_f, at1. destruct ((l'.1 =? l.1) && (l'.2 =? l.2)); reflexivity. }
  destruct c as [|v]; [apply wp_skip; exact G|]. destruct Hav as [->|]; [|discriminate]. apply wp_skip. exact G.
Qed.
Lemma wp_construct_default l c (Q : post unit) E h rg : cellat h l = Some c -> avail c ->
  (forall h', hov h h' (fun l' => if at1 l l' then Some (Live dflt) else None) -> Q tt h' rg) -> (copy_throws tr = true -> E h rg) ->
  wp (construct_default tr dflt l) Q E h rg.
Proof.
  intros Hc Hav HQ HE. unfold construct_default. apply wp_bind. eapply wp_peek_c; [eassumption|]. apply wp_bind.
  assert (G : wp (may_throw (copy_throws tr) ;;; poke l (Live dflt)) Q E h rg).
  { apply wp_bind, wp_may_throw; [|assumption]. eapply wp_poke_c; [eassumption|]. exact HQ. }
  destruct c as [|v]; [apply wp_skip; exact G|]. destruct Hav as [->|]; [|discriminate]. apply wp_skip. exact G.
Qed.
Lemma wp_assign_to l a mv x c (Q : post unit) E h rg : cellat h l = Some c -> assignable c -> aval h a x ->
  (forall h', hov h h' (con_f l a mv x) -> Q tt h' rg) -> (copy_throws tr = true -> E h rg) ->
  wp (assign_to tr moved l a mv) Q E h rg.
Proof.
  intros Hc Hav Ha HQ HE. unfold assign_to. apply wp_bind. eapply wp_peek_c; [eassumption|]. apply wp_bind.
  assert (G : wp (may_throw (copy_throws tr) ;;; v <- take_arg tr moved a mv ;; poke l (Live v)) Q E h rg).
  { apply wp_bind, wp_may_throw; [|assumption]. apply wp_bind. eapply wp_take_arg; [eassumption|]. intros h1 H1.
    eapply wp_poke_c.
    - rewrite (hov_cell _ _ _ _ H1), Hc. reflexivity.
    - intros h2 H2. apply HQ. pose proof (hov_trans _ _ _ _ _ H1 H2) as H3. eapply hov_ext; [exact H3|]. intros l' c' _. unfold con_f, at1. destruct ((l'.1 =? l.1) && (l'.2 =? l.2)); reflexivity. }
  destruct c as [|v]; [|apply wp_skip; exact G]. destruct Hav as [->|[v ?]]; [|discriminate]. apply wp_skip. exact G.
Qed.

(** ** ranges *)
(** destruction: what it leaves behind *)
Definition dead_f (b i n : nat) (l : loc) : option (@cell V) := if rng b i n l && negb (t_triv tr) then Some Raw else None.
Lemma wp_destroy_range b i n (Q : post unit) E h rg :
  (t_triv tr = false -> forall k, i <= k -> k < i + n -> exists v, cellat h (b, k) = Some (Live v)) ->
  (forall h', hov h h' (dead_f b i n) -> Q tt h' rg) -> wp (destroy_range tr b i n) Q E h rg.
Proof.
  intros Hl HQ. unfold destroy_range.
  eapply wp_mono; [apply (wp_for_up n i _ (fun k h' rg' => rg' = rg /\ hov h h' (dead_f b i (k - i))) E)| |].
  - intros k h' rg' K1 K2 [-> Hh]. unfold destroy. destruct (t_triv tr) eqn:Et.
    + apply wp_skip. split; [reflexivity|]. eapply hov_ext; [exact Hh|]. intros l c _. unfold dead_f. rewrite Et, !andb_false_r. reflexivity.
    + apply wp_bind. destruct (Hl eq_refl k K1 K2) as [v Hv].
      eapply wp_peek_c.
      { rewrite (hov_cell _ _ _ _ Hh), Hv. unfold dead_f, rng. cbn [fst snd]. destruct (Nat.ltb_spec k (i + (k - i))); [lia|]. rewrite andb_false_r. reflexivity. }
      cbn beta iota. eapply wp_poke_c.
      { rewrite (hov_cell _ _ _ _ Hh), Hv. reflexivity. }
      intros h2 H2. split; [reflexivity|]. eapply hov_ext; [exact (hov_trans _ _ _ _ _ Hh H2)|]. intros [b' k'] c _. cbn [fst snd]. unfold dead_f, rng. cbn [fst snd]. rewrite Et.
      destruct (Nat.eqb_spec b' b), (Nat.eqb_spec k' k), (Nat.leb_spec i k'), (Nat.ltb_spec k' (i + (k - i))), (Nat.ltb_spec k' (i + (S k - i))); try (exfalso; lia); reflexivity.
  - split; [reflexivity|]. rewrite Nat.sub_diag. apply hov_refl. intros [b' k']. unfold dead_f, rng. cbn [fst snd].
    destruct (Nat.leb_spec i k'), (Nat.ltb_spec k' (i + 0)); try (exfalso; lia); rewrite ?andb_false_r; reflexivity.
  - intros [] h' rg' [-> Hh]. apply HQ. replace (i + n - i) with n in Hh by lia. exact Hh.
  - auto.
Qed.
Lemma wp_destroy l (Q : post unit) E h rg : (t_triv tr = false -> exists v, cellat h l = Some (Live v)) ->
  (forall h', hov h h' (dead_f l.1 l.2 1) -> Q tt h' rg) -> wp (destroy tr l) Q E h rg.
Proof.
  intros Hl HQ. destruct l as [b k]. unfold destroy. destruct (t_triv tr) eqn:Et.
  - apply wp_skip, HQ, hov_refl. intros l. unfold dead_f. rewrite Et, andb_false_r. reflexivity.
  - destruct (Hl eq_refl) as [v Hv]. apply wp_bind. eapply wp_peek_c; [eassumption|]. cbn beta iota. eapply wp_poke_c; [eassumption|]. intros h2 H2. apply HQ.
    eapply hov_ext; [exact H2|]. intros [b' k'] c _. unfold dead_f, rng. cbn [fst snd]. rewrite Et.
    destruct (Nat.eqb_spec b' b), (Nat.eqb_spec k' k), (Nat.leb_spec k k'), (Nat.ltb_spec k' (k + 1)); try (exfalso; lia); reflexivity.
Qed.

(** construction of the values [xs] from (d, i) on, taking them (if [mv]) from the cells (s, j) on *)
Definition live_f (d i : nat) (xs : list V) (l : loc) : option (@cell V) := if rng d i (length xs) l then Live <$> xs !! (l.2 - i) else None.
Definition src_f (mv : bool) (s j : nat) (xs : list V) (l : loc) : option (@cell V) := if mv then live_f s j (mvd tr moved <$> xs) l else None.
Lemma live_f_snoc d i xs x l : live_f d i (xs ++ [x]) l = if at1 (d, i + length xs) l then Some (Live x) else live_f d i xs l.
Proof.
  unfold live_f, rng, at1. destruct l as [b k]. cbn [fst snd]. rewrite app_length. cbn [length].
  destruct (Nat.eqb_spec b d), (Nat.leb_spec i k), (Nat.ltb_spec k (i + (length xs + 1))), (Nat.ltb_spec k (i + length xs)), (Nat.eqb_spec k (i + length xs)); try (exfalso; lia); cbn [andb]; try reflexivity.
  - rewrite lookup_app_l by lia. reflexivity.
  - rewrite lookup_app_r by lia. replace (k - i - length xs) with 0 by lia. reflexivity.
Qed.
Lemma live_f_nil d i l : live_f d i [] l = None.
Proof. unfold live_f. destruct (rng d i (length []) l) eqn:E; [|reflexivity]. rewrite rng_true in E. cbn [length] in E. lia. Qed.
Lemma live_f_none d i xs l : rng d i (length xs) l = false -> live_f d i xs l = None.
Proof. unfold live_f. intros ->. reflexivity. Qed.
Lemma live_f_some d i xs l : rng d i (length xs) l = true -> exists x, xs !! (l.2 - i) = Some x /\ live_f d i xs l = Some (Live x).
Proof.
  unfold live_f. intros E. rewrite E. rewrite rng_true in E. destruct (lookup_lt_is_Some_2 xs (l.2 - i)) as [x Hx]; [lia|]. exists x. rewrite Hx. auto.
Qed.

(** one loop for all the uninitialized_* functions: [arg k] denotes [xs !! k], all cells of the target are available *)
Lemma wp_con_loop d i0 xs (a : nat -> @arg V) mv (body : nat -> M unit) (cleanup : nat -> M unit) s j (Q : post unit) E h rg base :
  (forall k, (a k = Ref (s, j + k) /\ (d <> s \/ i0 + length xs <= j \/ j + length xs <= i0)) \/ mv = false /\ forall h h' x f, hov h h' f -> (forall l, rng d i0 (length xs) l = false -> f l = None) -> aval h (a k) x -> aval h' (a k) x) ->
  (forall k h', k < length xs -> body (base + k) = construct tr moved (d, i0 + k) (a k) mv) ->
  (forall k, cleanup (base + k) = destroy_range tr d i0 k) ->
  (forall k, k < length xs -> exists c, cellat h (d, i0 + k) = Some c /\ avail c) ->
  (forall k x, xs !! k = Some x -> aval h (a k) x) ->
  (mv = true -> d <> s \/ i0 + length xs <= j \/ j + length xs <= i0) ->
  (forall h', hov h h' (orelse (live_f d i0 xs) (src_f mv s j xs)) -> Q tt h' rg) ->
  (forall h' k, k < length xs -> (if mv then move_throws tr else copy_throws tr) = true -> hov h h' (src_f mv s j (take k xs)) -> E h' rg) ->
  wp (for_guard (length xs) base body cleanup) Q E h rg.
Proof.
  intros Ha Hbody Hclean Hdst Hval Hdis HQ HE.
  set (F := fun k => orelse (live_f d i0 (take k xs)) (src_f mv s j (take k xs))).
  eapply wp_mono; [apply (wp_for_guard (length xs) base _ _ (fun k h' rg' => rg' = rg /\ hov h h' (F (k - base))) E)| |].
  - intros k h1 rg1 K1 K2 [-> H1]. replace k with (base + (k - base)) by lia. set (q := k - base). assert (Hq : q < length xs) by (unfold q; lia).
    rewrite Hbody by (exact h || exact Hq). destruct (lookup_lt_is_Some_2 xs q Hq) as [x Hx]. destruct (Hdst q Hq) as (c & Hc & Hav). specialize (Hval q x Hx).
    fold q in H1. assert (Hlt : length (take q xs) = q) by (apply take_length_le; lia).
    assert (NOL : forall l, rng d i0 (length xs) l = false -> live_f d i0 (take q xs) l = None).
    { intros l El. apply live_f_none. rewrite Hlt. destruct (rng d i0 q l) eqn:E2; [|reflexivity]. apply rng_true in E2. exfalso. apply Bool.not_true_iff_false in El. apply El. apply rng_true. lia. }
    assert (Hd1 : cellat h1 (d, i0 + q) = Some c).
    { rewrite (hov_cell _ _ _ _ H1), Hc. unfold F, orelse.
      rewrite live_f_none by (rewrite Hlt; apply Bool.not_true_iff_false; rewrite rng_true; cbn [fst snd]; lia).
      unfold src_f. destruct mv; [|reflexivity]. rewrite live_f_none; [reflexivity|]. rewrite fmap_length, Hlt. apply Bool.not_true_iff_false. rewrite rng_true. cbn [fst snd]. specialize (Hdis eq_refl). lia. }
    assert (Hav1 : aval h1 (a q) x).
    { destruct (Ha q) as [[Eq Hdis']|[-> Hst]].
      - rewrite Eq in *. cbn [aval] in *. rewrite (hov_cell _ _ _ _ H1), Hval. unfold F, orelse.
        rewrite live_f_none by (rewrite Hlt; apply Bool.not_true_iff_false; rewrite rng_true; cbn [fst snd]; lia).
        unfold src_f. destruct mv; [|reflexivity]. rewrite live_f_none; [reflexivity|]. rewrite fmap_length, Hlt. apply Bool.not_true_iff_false. rewrite rng_true. cbn [fst snd]. lia.
      - eapply (Hst h h1 x _ H1); [|assumption]. intros l El. unfold F, orelse. rewrite NOL by assumption. reflexivity. }
    eapply wp_construct; [exact Hd1|exact Hav|exact Hav1| |].
    + intros h2 H2. split; [reflexivity|]. replace (S (base + q) - base) with (S q) by lia. eapply hov_ext; [exact (hov_trans _ _ _ _ _ H1 H2)|].
      intros l cl _. unfold con_f, F, orelse. rewrite (take_S_snoc _ _ _ Hx), live_f_snoc, Hlt.
      destruct (at1 (d, i0 + q) l) eqn:E1; [reflexivity|].
      destruct (Ha q) as [[Eq _]|[Em _]].
      * rewrite Eq. cbn [asrc]. unfold src_f. destruct mv; cbn [andb]; [|destruct (live_f d i0 (take q xs) l); reflexivity].
        rewrite fmap_app. cbn [fmap list_fmap]. rewrite live_f_snoc, fmap_length, Hlt. destruct (at1 (s, j + q) l) eqn:E2; [|reflexivity].
        apply at1_true in E2. subst l. rewrite live_f_none; [reflexivity|]. rewrite Hlt. apply Bool.not_true_iff_false. rewrite rng_true. cbn [fst snd]. specialize (Hdis eq_refl). lia.
      * rewrite Em. unfold src_f. destruct (a q); cbn [asrc andb]; destruct (live_f d i0 (take q xs) l); reflexivity.
    + intros Hthr. rewrite Hclean.
      assert (Et : t_triv tr = false). { unfold move_throws, copy_throws in Hthr. destruct (t_triv tr); [destruct mv; discriminate|reflexivity]. }
      apply wp_destroy_range.
      * intros _ m M1 M2. destruct (live_f_some d i0 (take q xs) (d, m)) as (y & _ & Hy); [apply rng_true; rewrite Hlt; cbn [fst snd]; lia|].
        exists y. rewrite (hov_cell _ _ _ _ H1). destruct (Hdst (m - i0)) as (c' & Hc' & _); [lia|]. replace (i0 + (m - i0)) with m in Hc' by lia. rewrite Hc'. unfold F, orelse. rewrite Hy. reflexivity.
      * intros h2 H2. apply (HE h2 q Hq Hthr). eapply hov_ext; [exact (hov_trans _ _ _ _ _ H1 H2)|]. intros l cl Hcl. unfold dead_f. rewrite Et. cbn [negb]. rewrite andb_true_r.
        destruct (rng d i0 q l) eqn:E1.
        -- pose proof E1 as E1'. apply rng_true in E1'. destruct l as [b m]. cbn [fst snd] in *. destruct E1' as (-> & M1 & M2).
           destruct (Hdst (m - i0)) as (c' & Hc' & Hav'); [lia|]. replace (i0 + (m - i0)) with m in Hc' by lia. rewrite Hcl in Hc'. injection Hc' as <-.
           destruct Hav' as [|Hraw]; [congruence|]. subst cl.
           unfold src_f. destruct mv; [|reflexivity]. rewrite live_f_none; [reflexivity|]. rewrite fmap_length, Hlt. apply Bool.not_true_iff_false. rewrite rng_true. cbn [fst snd]. specialize (Hdis eq_refl). lia.
        -- unfold F, orelse. rewrite live_f_none by (rewrite Hlt; assumption). reflexivity.
  - split; [reflexivity|]. rewrite Nat.sub_diag. apply hov_refl. intros l. unfold F, orelse, src_f. cbn [take]. rewrite live_f_nil. destruct mv; [|reflexivity]. apply live_f_nil.
  - intros [] h' rg' [-> Hh]. apply HQ. replace (base + length xs - base) with (length xs) in Hh by lia. unfold F in Hh. rewrite take_ge in Hh by lia. exact Hh.
  - auto.
Qed.
End Wp.
