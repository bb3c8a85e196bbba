(** Property C79: comparisons of vectors, erase(v, value), compactResize, and storage that is taken from a vector and given to another.
    [xreach w] are the worlds that programs arrive at, with exceptions anywhere, that use these beside the calls of C37.
    Registers below [nv] are vectors; the others are where the program notes storage that it took from a vector. *)
From stdpp Require Import gmap list infinite fin_map_dom.
From Coq Require Import NArith Lia ZifyBool ZifyNat ZifyN.
From Verif.Vec Require Import Model Wp Ranges Segs Ops1 Ops2 Ops3 Ops4 Ops5 Machine Refine PropsVec WitnessVec Handover Quiet.
Local Open Scope nat_scope.
Local Set Default Proof Using "All".

(** What comparisons of sequences mean, given the operators == and < of the elements *)
Section Less.
Context {V : Type} (ltb : V -> V -> bool).
Implicit Types xs ys zs : list V.
(** less: at the first place where one element is less than the other, the left one is; or all are even and the left sequence ends first *)
Definition even_upto k xs ys : Prop := forall i, i < k -> exists x y, xs !! i = Some x /\ ys !! i = Some y /\ ltb x y = false /\ ltb y x = false.
Definition less xs ys : Prop :=
  exists k, even_upto k xs ys /\ exists y, ys !! k = Some y /\ (xs !! k = None \/ exists x, xs !! k = Some x /\ ltb x y = true).
Lemma less_nil_l ys : less [] ys <-> ys <> [].
Proof.
  split.
  - intros (k & He & y & Hy & _). destruct ys; [discriminate|discriminate].
  - intros Hn. destruct ys as [|y ys]; [congruence|]. exists 0. split; [intros i Hi; lia|]. exists y. auto.
Qed.
Lemma less_nil_r xs : ~ less xs [].
Proof. intros (k & _ & y & Hy & _). discriminate. Qed.
Lemma less_cons x xs y ys : less (x :: xs) (y :: ys) <-> ltb x y = true \/ (ltb x y = false /\ ltb y x = false /\ less xs ys).
Proof.
  split.
  - intros ([|k] & He & z & Hz & H).
    + cbn in Hz. injection Hz as <-. destruct H as [H|(x' & H & Hl)]; [discriminate|]. cbn in H. injection H as <-. auto.
    + destruct (He 0) as (x' & y' & Hx & Hy & H1 & H2); [lia|]. cbn in Hx, Hy. injection Hx as <-. injection Hy as <-. right. split; [assumption|]. split; [assumption|].
      exists k. split; [intros i Hi; exact (He (S i) ltac:(lia))|]. exists z. auto.
  - intros [H|(H1 & H2 & k & He & z & Hz & H)].
    + exists 0. split; [intros i Hi; lia|]. exists y. split; [reflexivity|]. right. exists x. auto.
    + exists (S k). split; [|exists z; auto]. intros [|i] Hi; [exists x, y; auto|]. exact (He i ltac:(lia)).
Qed.
End Less.
Section Order.
Context {V : Type} (eqb ltb : V -> V -> bool).
Notation less := (less ltb).
Implicit Types xs ys zs : list V.
(** equal: as long, and equal element by element *)
Definition same xs ys : Prop := Forall2 (fun x y => eqb x y = true) xs ys.
Definition compares (c : cmp) xs ys : Prop :=
  match c with Eq => same xs ys | Ne => ~ same xs ys | Lt => less xs ys | Gt => less ys xs | Le => ~ less ys xs | Ge => ~ less xs ys end.

(** < is a strict weak ordering of the elements, and == holds of elements of which neither is less *)
Definition ordered : Prop :=
  (forall x, ltb x x = false) /\ (forall x y z, ltb x y = true -> ltb y z = true -> ltb x z = true) /\
  (forall x y z, ltb x y = false -> ltb y x = false -> ltb y z = false -> ltb z y = false -> ltb x z = false /\ ltb z x = false) /\
  (forall x y, eqb x y = true <-> ltb x y = false /\ ltb y x = false).
Lemma same_cons x xs y ys : same (x :: xs) (y :: ys) <-> eqb x y = true /\ same xs ys.
Proof. split; [intros H; inversion H; auto|intros []; constructor; assumption]. Qed.
Lemma less_irr xs : ordered -> ~ less xs xs.
Proof. intros HO. destruct HO as (Hi & _). induction xs as [|x xs IH]; [apply less_nil_r|]. rewrite less_cons, Hi. intros [H|(_ & _ & H)]; [discriminate|auto]. Qed.
Lemma ltb_even_l x y z : ordered -> ltb x y = false -> ltb y x = false -> ltb y z = true -> ltb x z = true.
Proof.
  intros (Hi & Ht & Hw & _) H1 H2 H3. destruct (ltb x z) eqn:E; [reflexivity|]. destruct (ltb z x) eqn:E2; [rewrite (Ht _ _ _ H3 E2) in H2; discriminate|]. destruct (Hw y x z H2 H1 E E2). congruence.
Qed.
Lemma ltb_even_r x y z : ordered -> ltb x y = true -> ltb y z = false -> ltb z y = false -> ltb x z = true.
Proof.
  intros (Hi & Ht & Hw & _) H1 H2 H3. destruct (ltb x z) eqn:E; [reflexivity|]. destruct (ltb z x) eqn:E2; [rewrite (Ht _ _ _ E2 H1) in H3; discriminate|]. destruct (Hw x z y E E2 H3 H2). congruence.
Qed.
Lemma ltb_asym x y : ordered -> ltb x y = true -> ltb y x = false.
Proof. intros (Hi & Ht & _) H. destruct (ltb y x) eqn:E; [|reflexivity]. rewrite <- (Hi x), (Ht _ _ _ H E). reflexivity. Qed.
Lemma less_trans xs : ordered -> forall ys zs, less xs ys -> less ys zs -> less xs zs.
Proof.
  intros HO. induction xs as [|x xs IH]; intros [|y ys] [|z zs] H1 H2; try (destruct (less_nil_r _ _ H1)); try (destruct (less_nil_r _ _ H2)); [apply less_nil_l; discriminate|].
  rewrite less_cons in *. destruct H1 as [H1|(A1 & A2 & H1)], H2 as [H2|(B1 & B2 & H2)].
  - left. destruct HO as (_ & Ht & _). eapply Ht; eassumption.
  - left. eapply ltb_even_r; eassumption.
  - left. eapply ltb_even_l; eassumption.
  - right. pose proof HO as (_ & _ & Hw & _). destruct (Hw x y z); [assumption|assumption|assumption|assumption|]. split; [assumption|]. split; [assumption|]. eapply IH; eassumption.
Qed.
Lemma less_total xs : ordered -> forall ys, less xs ys \/ same xs ys \/ less ys xs.
Proof.
  intros HO. induction xs as [|x xs IH]; intros [|y ys].
  - right. left. constructor.
  - left. apply less_nil_l. discriminate.
  - right. right. apply less_nil_l. discriminate.
  - rewrite !less_cons, same_cons. destruct (ltb x y) eqn:E1; [auto|]. destruct (ltb y x) eqn:E2; [auto|]. assert (eqb x y = true) by (apply HO; auto). destruct (IH ys) as [H1|[H1|H1]]; tauto.
Qed.
Lemma same_not_less xs : ordered -> forall ys, same xs ys -> ~ less xs ys /\ ~ less ys xs.
Proof.
  intros HO ys H. induction H as [|x y xs ys He _ IH]; [split; apply less_nil_r|]. apply HO in He as [H1 H2]. rewrite !less_cons, H1, H2. split; (intros [H|(_ & _ & H)]; [discriminate|tauto]).
Qed.
(** C79: if < is a strict weak ordering of the elements that == agrees with, exactly one of a < b, a == b and b < a holds, a <= b means
    a < b or a == b, and < on vectors is transitive and does not distinguish equal vectors. *)
Theorem C79_order : ordered -> forall xs ys zs,
  (compares Lt xs ys \/ compares Eq xs ys \/ compares Gt xs ys) /\
  ~ (compares Lt xs ys /\ compares Eq xs ys) /\ ~ (compares Lt xs ys /\ compares Gt xs ys) /\ ~ (compares Eq xs ys /\ compares Gt xs ys) /\
  (compares Le xs ys <-> compares Lt xs ys \/ compares Eq xs ys) /\ (compares Ge xs ys <-> compares Le ys xs) /\
  (compares Lt xs ys -> compares Lt ys zs -> compares Lt xs zs) /\
  (compares Eq xs ys -> compares Lt xs zs -> compares Lt ys zs) /\ (compares Eq xs ys -> compares Lt zs xs -> compares Lt zs ys) /\
  compares Eq xs xs /\ (compares Eq xs ys -> compares Eq ys xs) /\ (compares Eq xs ys -> compares Eq ys zs -> compares Eq xs zs).
Proof.
  intros HO xs ys zs. cbn [compares]. assert (NLG : forall xs ys, ~ (less xs ys /\ less ys xs)) by (intros a b [H1 H2]; exact (less_irr a HO (less_trans a HO b a H1 H2))).
  assert (SYM : forall a b, same a b -> same b a).
  { intros a b H. induction H as [|x y a b He _ IH]; [constructor|]. constructor; [|exact IH]. apply HO in He as [H1 H2]. apply HO. auto. }
  assert (TR : forall a b c, same a b -> same b c -> same a c).
  { intros a b c H1. revert c. induction H1 as [|x y a b He _ IH]; intros c H; [exact H|]. inversion H as [|? z ? c' Hz Hc]; subst. constructor; [|apply IH; exact Hc].
    apply HO in He as [A1 A2]. apply HO in Hz as [B1 B2]. apply HO. destruct HO as (_ & _ & Hw & _). eapply Hw; eassumption. }
  assert (NS : forall a b, same a b -> ~ less a b /\ ~ less b a) by (intros a b; apply same_not_less, HO).
  assert (CL : forall a b c, same a b -> less a c -> less b c).
  { intros a b c H1 H2. destruct (less_total b HO c) as [H|[H|H]]; [exact H| |]; exfalso.
    - destruct (NS a c (TR _ _ _ H1 H)). tauto.
    - destruct (NS a b H1) as [H3 _]. apply H3. eapply less_trans; eassumption. }
  assert (CR : forall a b c, same a b -> less c a -> less c b).
  { intros a b c H1 H2. destruct (less_total c HO b) as [H|[H|H]]; [exact H| |]; exfalso.
    - destruct (NS a c (TR _ _ _ H1 (SYM _ _ H))). tauto.
    - destruct (NS a b H1) as [_ H3]. apply H3. eapply less_trans; eassumption. }
  split; [apply less_total, HO|]. split; [intros [H1 H2]; destruct (NS _ _ H2); tauto|]. split; [apply NLG|]. split; [intros [H1 H2]; destruct (NS _ _ H1); tauto|].
  split; [|split; [reflexivity|]].
  { split; [intros H; destruct (less_total xs HO ys) as [H1|[H1|H1]]; tauto|]. intros [H|H] H2; [apply (NLG xs ys); auto|destruct (NS _ _ H); tauto]. }
  split; [apply less_trans, HO|]. split; [apply CL|]. split; [apply CR|]. split; [|split; [apply SYM|apply TR]].
  destruct (less_total xs HO xs) as [H|[H|H]]; [destruct (less_irr xs HO H)|exact H|destruct (less_irr xs HO H)].
Qed.
End Order.

Section Props.
Context {V : Type} (tr : traits) (moved : V -> V) (dflt : V) (eqb ltb : V -> V -> bool) (ct : bool) (nv : nat).
Notation xexec := (xexec tr moved dflt eqb ltb ct).
Notation Inv := (Inv (V := V) tr).
Notation same := (same eqb).
Notation less := (less ltb).
Notation compares := (compares eqb ltb).
Notation heap := (gmap nat (list (@cell V))).
Notation post A := (A -> heap -> list vec -> Prop).
Implicit Types (xs ys zs : list V) (h : heap) (rg : list vec) (L : list (list V)) (E : heap -> list vec -> Prop).

(** ** Specification *)
(** what a call returns, and the sequences after it *)
Definition xspec (o : @xop V) L (x : @xobs V) L' : Prop :=
  match o with
  | Plain o => exists y, x = Plainly y /\ spec dflt o L = Some (y, L')
  | Cmp c r q => L' = L /\ exists xs ys b, L !! r = Some xs /\ L !! q = Some ys /\ x = Bool b /\ (b = true <-> compares c xs ys)
  | EraseValue r a => x = Done /\ exists xs y, L !! r = Some xs /\ sval L a = Some y /\ L' = <[r := List.filter (fun z => negb (eqb z y)) xs]> L
  | CompactResize r n => x = Done /\ exists xs, L !! r = Some xs /\ L' = <[r := take n xs ++ replicate (n - length xs) dflt]> L
  | Relinquish r k => exists p xs, x = Ptr p /\ L !! r = Some xs /\ L' = <[r := []]> (<[k := xs]> L)
  | Attach r k => x = Done /\ exists xs, L !! k = Some xs /\ L' = <[k := []]> (<[r := xs]> L)
  | Dispose k => x = Done /\ L' = <[k := []]> L
  end.
(** the registers that a call names *)
Definition in_arg (a : @sarg V) : list nat := match a with AVal _ => [] | AEl q _ => [q] end.
Definition uses (o : @op V) : list nat :=
  dst o :: match o with
           | CtorFill _ _ a | AssignFill _ _ a | ResizeWith _ _ a | PushBack _ a _ | Emplace _ _ a _ | InsertCopy _ _ a | InsertFill _ _ _ a => in_arg a
           | CtorCopy _ q | CtorMove _ q | CopyAssign _ q | MoveAssign _ q | Swap _ q => [q]
           | _ => []
           end.
(** no storage: data() is a null pointer, for a place of the program: nothing is noted there *)
Definition fresh (w : @world V) (r : nat) : Prop := exists v, w_regs w !! r = Some v /\ v_blk v = None.
Definition is_place (w : @world V) (k : nat) : Prop := nv <= k < length (w_regs w).
Definition is_vec (w : @world V) (r : nat) : Prop := r < nv /\ r < length (w_regs w).
Definition xpre (o : @xop V) (w : @world V) : Prop :=
  match o with
  | Plain o => pre tr dflt o (view w) /\ Forall (is_vec w) (uses o)
  | Cmp _ r q => is_vec w r /\ is_vec w q
  | EraseValue r a => is_vec w r /\ Forall (is_vec w) (in_arg a) /\ is_Some (sval (view w) a)
  | CompactResize r n => is_vec w r /\ fits64 tr n /\ restorable tr = true
  | Relinquish r k => is_vec w r /\ is_place w k /\ fresh w k
  | Attach r k => is_vec w r /\ fresh w r /\ is_place w k
  | Dispose k => is_place w k
  end.
(** what a call that throws may have changed *)
Definition xthrown (o : @xop V) L L' : Prop :=
  match o with
  | Plain o => after_throw tr o L L'
  | Cmp _ _ _ => ct = true /\ L' = L
  | EraseValue r _ => exists xs ys, L !! r = Some xs /\ length ys = length xs /\ L' = <[r := ys]> L
  | CompactResize _ _ => L' = L
  | Relinquish _ _ | Attach _ _ | Dispose _ => False
  end.
Inductive xreach : @world V -> Prop :=
| xreach_start k orc : xreach (start k orc)
| xreach_ret w o x w' : xreach w -> xpre o w -> xexec o w = Ret x w' -> xreach w'
| xreach_thr w o w' : xreach w -> xpre o w -> xexec o w = Thr w' -> xreach w'.

(** ** Comparisons *)
Lemma wp_equal_loop b c xs : forall ys i (Q : post bool) E h rg, length xs = length ys ->
  (forall j x, xs !! j = Some x -> cellat h (b, i + j) = Some (Live x)) -> (forall j y, ys !! j = Some y -> cellat h (c, i + j) = Some (Live y)) ->
  (forall e, (e = true <-> same xs ys) -> Q e h rg) -> (ct = true -> E h rg) -> wp (equal_loop eqb ct (length xs) i b c) Q E h rg.
Proof.
  induction xs as [|x xs IH]; intros [|y ys] i Q E h rg Hl Hx Hy HQ HE; try discriminate; cbn [length equal_loop].
  - apply wp_ret, HQ. split; [constructor|reflexivity].
  - apply wp_bind. eapply wp_read; [rewrite <- (Nat.add_0_r i); apply Hx; reflexivity|]. apply wp_bind. eapply wp_read; [rewrite <- (Nat.add_0_r i); apply Hy; reflexivity|]. apply wp_bind. apply wp_may_throw; [|exact HE].
    destruct (eqb x y) eqn:E1.
    + eapply (IH ys (S i)); [cbn in Hl; lia| | | |exact HE].
      * intros j z Hz. replace (S i + j) with (i + S j) by lia. apply Hx. exact Hz.
      * intros j z Hz. replace (S i + j) with (i + S j) by lia. apply Hy. exact Hz.
      * intros e He. apply HQ. rewrite He. split; [intros H; constructor; assumption|intros H; inversion H; assumption].
    + apply wp_ret, HQ. split; [discriminate|]. intros H. inversion H. congruence.
Qed.
Lemma wp_lex_loop b c xs : forall ys i (Q : post bool) E h rg,
  (forall j x, xs !! j = Some x -> cellat h (b, i + j) = Some (Live x)) -> (forall j y, ys !! j = Some y -> cellat h (c, i + j) = Some (Live y)) ->
  (forall e, (e = true <-> less xs ys) -> Q e h rg) -> (ct = true -> E h rg) -> wp (lex_loop ltb ct (length xs) (length ys) i b c) Q E h rg.
Proof.
  induction xs as [|x xs IH]; intros [|y ys] i Q E h rg Hx Hy HQ HE; cbn [length lex_loop].
  - apply wp_ret, HQ. rewrite less_nil_l. split; congruence.
  - apply wp_ret, HQ. rewrite less_nil_l. split; congruence.
  - apply wp_ret, HQ. split; [discriminate|intros H; destruct (less_nil_r _ _ H)].
  - apply wp_bind. eapply wp_read; [rewrite <- (Nat.add_0_r i); apply Hx; reflexivity|]. apply wp_bind. eapply wp_read; [rewrite <- (Nat.add_0_r i); apply Hy; reflexivity|]. apply wp_bind. apply wp_may_throw; [|exact HE].
    destruct (ltb x y) eqn:E1; [apply wp_ret, HQ; rewrite less_cons; tauto|]. apply wp_bind. apply wp_may_throw; [|exact HE].
    destruct (ltb y x) eqn:E2; [apply wp_ret, HQ; rewrite less_cons, E1, E2; split; [discriminate|intros [H|(_ & H & _)]; discriminate]|].
    eapply (IH ys (S i)); [| | |exact HE].
    + intros j z Hz. replace (S i + j) with (i + S j) by lia. apply Hx. exact Hz.
    + intros j z Hz. replace (S i + j) with (i + S j) by lia. apply Hy. exact Hz.
    + intros e He. apply HQ. rewrite He, less_cons, E1, E2. split; [auto|intros [H|H]; [discriminate|tauto]].
Qed.
Lemma Inv_reads h rg L r v xs : Inv h rg L -> rg !! r = Some v -> L !! r = Some xs ->
  v_sz v = length xs /\ forall j x, xs !! j = Some x -> cellat h (default 0 (v_blk v), 0 + j) = Some (Live x).
Proof.
  intros (_ & Hv & _) Hr Hx. destruct (Hv _ _ _ Hr Hx) as (Hl & _ & HS). split; [auto|]. intros j x Hj. pose proof (lookup_lt_Some _ _ _ Hj). destruct (v_blk v) as [b|]; [|lia].
  destruct HS as (R & Hb & _). unfold cellat. change (default 0 (Some b), 0 + j) with (b, j). cbn [fst snd]. rewrite Hb. rewrite lookup_app_l by (rewrite fmap_length; assumption). rewrite list_lookup_fmap, Hj. reflexivity.
Qed.
Lemma wp_do_cmp c r q v o xs ys L (Q : post bool) E h rg : Inv h rg L -> rg !! r = Some v -> rg !! q = Some o -> L !! r = Some xs -> L !! q = Some ys ->
  (forall e, (e = true <-> compares c xs ys) -> Q e h rg) -> (ct = true -> E h rg) -> wp (do_cmp eqb ltb ct c r q) Q E h rg.
Proof.
  intros HI Hr Hq Hx Hy HQ HE. destruct (Inv_reads _ _ _ _ _ _ HI Hr Hx) as [Sr Cr]. destruct (Inv_reads _ _ _ _ _ _ HI Hq Hy) as [Sq Cq].
  assert (EQ : forall (Q : post bool), (forall e, (e = true <-> same xs ys) -> Q e h rg) -> wp (op_eq eqb ct r q) Q E h rg).
  { intros Q' H. unfold op_eq. apply wp_bind. eapply wp_get; [exact Hr|]. apply wp_bind. eapply wp_get; [exact Hq|]. rewrite Sr, Sq. destruct (Nat.eqb_spec (length xs) (length ys)) as [Hl|Hl].
    - eapply wp_equal_loop; [exact Hl|exact Cr|exact Cq|exact H|exact HE].
    - apply wp_ret, H. split; [discriminate|]. intros HF. apply Forall2_length in HF. congruence. }
  assert (LT : forall (Q : post bool), (forall e, (e = true <-> less xs ys) -> Q e h rg) -> wp (op_lt ltb ct r q) Q E h rg).
  { intros Q' H. unfold op_lt. apply wp_bind. eapply wp_get; [exact Hr|]. apply wp_bind. eapply wp_get; [exact Hq|]. rewrite Sr, Sq. eapply wp_lex_loop; [exact Cr|exact Cq|exact H|exact HE]. }
  assert (GT : forall (Q : post bool), (forall e, (e = true <-> less ys xs) -> Q e h rg) -> wp (op_lt ltb ct q r) Q E h rg).
  { intros Q' H. unfold op_lt. apply wp_bind. eapply wp_get; [exact Hq|]. apply wp_bind. eapply wp_get; [exact Hr|]. rewrite Sr, Sq. eapply wp_lex_loop; [exact Cq|exact Cr|exact H|exact HE]. }
  assert (NEG : forall e P, (e = true <-> P) -> (negb e = true <-> ~ P)).
  { intros e P He. rewrite <- He. destruct e; cbn; split; congruence. }
  destruct c; cbn [do_cmp compares] in *.
  - apply EQ, HQ.
  - apply wp_bind, EQ. intros e He. apply wp_ret, HQ, NEG, He.
  - apply LT, HQ.
  - apply GT, HQ.
  - apply wp_bind, GT. intros e He. apply wp_ret, HQ, NEG, He.
  - apply wp_bind, LT. intros e He. apply wp_ret, HQ, NEG, He.
Qed.

(** ** Every call *)
Lemma wp_of {A} (m : @M V A) (Q : post A) E w : wp m Q E (w_heap w) (w_regs w) -> match m w with Ret a w' => Q a (w_heap w') (w_regs w') | Thr w' => E (w_heap w') (w_regs w') | Wrong => False end.
Proof. apply wp_world. Qed.
Lemma reg_of h rg L r : Inv h rg L -> r < length rg -> exists v xs, rg !! r = Some v /\ L !! r = Some xs.
Proof. intros [Hl _] Hr. destruct (lookup_lt_is_Some_2 rg r Hr) as [v Hv]. destruct (lookup_lt_is_Some_2 L r ltac:(lia)) as [xs Hx]. eauto. Qed.
Lemma null_vec h rg L r v xs : Inv h rg L -> rg !! r = Some v -> L !! r = Some xs -> v_blk v = None -> v = mkV None 0 0 /\ xs = [].
Proof.
  intros (_ & Hv & _) Hr Hx Hb. destruct (Hv _ _ _ Hr Hx) as (Hl & _ & HS). rewrite Hb in HS. destruct HS as [H1 H2]. destruct v as [b s c]. cbn in *. subst. destruct xs; [auto|discriminate].
Qed.
Lemma vec_eta (v : vec) : mkV (v_blk v) (v_sz v) (v_cap v) = v. Proof. destruct v; reflexivity. Qed.
Lemma xstep_ok o w : machine64 tr -> Inv (w_heap w) (w_regs w) (view w) -> xpre o w ->
  wp (xexec o) (fun x h' rg' => exists L', xspec o (view w) x L' /\ Inv h' rg' L') (fun h' rg' => exists L', xthrown o (view w) L' /\ Inv h' rg' L') (w_heap w) (w_regs w).
Proof.
  intros Hm HI Hp. set (L := view w) in *. set (h := w_heap w) in *. set (rg := w_regs w) in *.
  destruct o as [o|c r q|r a|r n|r k|r k|k]; cbn [xpre Handover.xexec xspec xthrown] in *.
  - apply wp_bind. eapply wp_mono; [exact (step_ok tr moved dflt o h rg L Hm HI (proj1 Hp))| |auto]. intros x h' rg' (L' & H1 & H2). apply wp_ret. exists L'. eauto.
  - destruct Hp as [[_ Hr] [_ Hq]]. destruct (reg_of _ _ _ _ HI Hr) as (v & xs & Ev & Ex). destruct (reg_of _ _ _ _ HI Hq) as (o & ys & Eo & Ey). apply wp_bind.
    eapply wp_do_cmp; [exact HI|exact Ev|exact Eo|exact Ex|exact Ey| |].
    + intros e He. apply wp_ret. exists L. split; [|exact HI]. split; [reflexivity|]. exists xs, ys, e. auto.
    + intros Hct. exists L. auto.
  - destruct Hp as ([_ Hr] & _ & [y Hy]). destruct (reg_of _ _ _ _ HI Hr) as (v & xs & Ev & Ex). apply wp_bind. eapply (wp_resolve tr moved dflt); [exact HI|exact Ev|exact Ex|exact Hy|]. intros a' Ha _ _.
    assert (SAME : exists L', (exists xs0 ys, L !! r = Some xs0 /\ length ys = length xs0 /\ L' = <[r := ys]> L) /\ Inv h rg L').
    { exists L. split; [|exact HI]. exists xs, xs. split; [exact Ex|]. split; [reflexivity|]. symmetry. apply list_insert_id, Ex. }
    pose proof (Inv_St tr _ _ _ _ _ _ HI Ev Ex) as HS. apply wp_bind. unfold erase_value. apply wp_bind. apply wp_may_throw; [|intros _; exact SAME]. apply wp_bind.
    assert (TA : forall (Q : post V), Q y h rg -> wp (take_arg tr moved a' false) Q (fun h' rg' => exists L', (exists xs0 ys, L !! r = Some xs0 /\ length ys = length xs0 /\ L' = <[r := ys]> L) /\ Inv h' rg' L') h rg).
    { intros Q HQ. destruct a' as [z|l]; cbn [take_arg].
      - cbn [argok] in Ha. subst z. apply wp_ret, HQ.
      - apply wp_bind. eapply wp_read; [|apply wp_bind, wp_skip, wp_ret, HQ]. cbn [argok] in Ha. destruct Ha as [Ha|[Hb Ha]].
        + destruct l as [b i]. unfold cellat in *. cbn [fst snd] in *. unfold own in Ha. destruct (v_blk v) as [b'|]; [|exact Ha]. destruct (decide (b' = b)) as [->|Hne]; [rewrite lookup_delete in Ha; discriminate|]. rewrite lookup_delete_ne in Ha by assumption. exact Ha.
        + destruct l as [b i]. cbn [fst snd] in *. destruct (Inv_reads _ _ _ _ _ _ HI Ev Ex) as [_ Hrd]. specialize (Hrd _ _ Ha). rewrite Hb in Hrd. exact Hrd. }
    apply TA. apply wp_bind. eapply wp_erase_if; [exact Ev|exact HS| |].
    + cbv zeta. intros h' HS'. apply wp_skip, wp_ret. eexists. split; [split; [reflexivity|]; exists xs, y; split; [exact Ex|]; split; [exact Hy|reflexivity]|]. eapply Inv_back; [exact HI|exact Ev|exact HS'].
    + intros ys h' Hl HS'. exists (<[r := ys]> L). split; [eauto|]. eapply Inv_same; [exact HI|exact Ev|exact HS'].
  - destruct Hp as ([_ Hr] & Hf & Hs). destruct (reg_of _ _ _ _ HI Hr) as (v & xs & Ev & Ex). pose proof (Inv_St tr _ _ _ _ _ _ HI Ev Ex) as HS. apply wp_bind. unfold compact_resize. apply wp_bind.
    eapply wp_resize; [exact Hm|exact Hf|exact Ev|exact HS| |].
    + intros v' h' HS' _. eapply wp_shrink_to_fit; [exact Hm|apply list_lookup_insert; apply lookup_lt_Some in Ev; exact Ev|exact HS'|].
      intros v2 ys h2 _ Hys HS2 _. apply wp_ret. rewrite (Hys Hs) in HS2. eexists. split; [split; [reflexivity|]; exists xs; split; [exact Ex|reflexivity]|]. rewrite list_insert_insert. eapply Inv_back; [exact HI|exact Ev|exact HS2].
    + intros v' ys h' HS' _ Hys. rewrite (Hys Hs) in HS'. exists L. split; [reflexivity|]. rewrite <- (list_insert_id L r xs Ex). eapply Inv_back; [exact HI|exact Ev|exact HS'].
  - destruct Hp as ([Hrn Hr] & [Hkn Hk] & (o & Eo & Hb)). fold rg in Eo. destruct (reg_of _ _ _ _ HI Hr) as (v & xs & Ev & Ex). destruct (reg_of _ _ _ _ HI Hk) as (o' & ys & Eo' & Ey). replace o' with o in * by congruence.
    destruct (null_vec _ _ _ _ _ _ HI Eo Ey Hb) as [-> ->]. assert (Hne : r <> k) by lia.
    apply wp_bind. eapply wp_get; [exact Ev|]. apply wp_bind. unfold relinquish. apply wp_bind. eapply wp_get; [exact Ev|]. apply wp_bind. eapply wp_set; [exact Ev|]. apply wp_ret. apply wp_bind.
    eapply wp_set; [rewrite list_lookup_insert_ne by congruence; exact Eo|]. apply wp_ret. rewrite vec_eta. eexists. split; [exists (v_blk v), xs; split; [reflexivity|]; split; [exact Ex|reflexivity]|].
    rewrite list_insert_commute by congruence. exact (Inv_regs tr h rg L k r _ _ _ _ HI Eo Ev Ey Ex).
  - destruct Hp as ([Hrn Hr] & (o & Eo & Hb) & [Hkn Hk]). fold rg in Eo. destruct (reg_of _ _ _ _ HI Hk) as (v & xs & Ev & Ex). destruct (reg_of _ _ _ _ HI Hr) as (o' & ys & Eo' & Ey). replace o' with o in * by congruence.
    destruct (null_vec _ _ _ _ _ _ HI Eo Ey Hb) as [-> ->]. assert (Hne : r <> k) by lia.
    apply wp_bind. eapply wp_get; [exact Ev|]. apply wp_bind. unfold attach. eapply wp_set; [exact Eo|]. apply wp_bind. eapply wp_set; [rewrite list_lookup_insert_ne by congruence; exact Ev|]. apply wp_ret. rewrite vec_eta.
    eexists. split; [split; [reflexivity|]; exists xs; split; [exact Ex|reflexivity]|]. exact (Inv_regs tr h rg L r k _ _ _ _ HI Eo Ev Ey Ex).
  - destruct Hp as [Hkn Hk]. destruct (reg_of _ _ _ _ HI Hk) as (v & xs & Ev & Ex). pose proof (Inv_St tr _ _ _ _ _ _ HI Ev Ex) as HS. apply wp_bind. eapply wp_dtor; [exact Ev|exact HS|]. apply wp_ret. eexists. split; [split; reflexivity|].
    eapply Inv_back; [exact HI|exact Ev|apply St_null].
Qed.
Lemma xreach_inv w : machine64 tr -> xreach w -> Inv (w_heap w) (w_regs w) (view w).
Proof.
  intros Hm. induction 1 as [k orc|w o x w' HR IH Hp E|w o w' HR IH Hp E].
  - rewrite (view_inv tr (start k orc) (replicate k [])); apply Inv_init.
  - pose proof (wp_of _ _ _ _ (xstep_ok o w Hm IH Hp)) as H. rewrite E in H. destruct H as (L' & _ & H). rewrite (view_inv tr _ _ H). exact H.
  - pose proof (wp_of _ _ _ _ (xstep_ok o w Hm IH Hp)) as H. rewrite E in H. destruct H as (L' & _ & H). rewrite (view_inv tr _ _ H). exact H.
Qed.

(** C79: no call of any program goes wrong; what it returns and leaves is what it should; an exception leaves what [xthrown] says. *)
Theorem C79_calls w o : machine64 tr -> xreach w -> xpre o w ->
  match xexec o w with Ret x w' => xspec o (view w) x (view w') | Thr w' => xthrown o (view w) (view w') | Wrong => False end.
Proof.
  intros Hm HR Hp. pose proof (wp_of _ _ _ _ (xstep_ok o w Hm (xreach_inv w Hm HR) Hp)) as H. destruct (xexec o w) as [x w'|w'|]; [| |exact H]; destruct H as (L' & H1 & H2); rewrite (view_inv tr _ _ H2); exact H1.
Qed.
(** Storage in use has one owner: a vector, or a place where the program noted it.  So nothing leaks and nothing is freed twice. *)
Theorem C79_one_owner w : machine64 tr -> xreach w ->
  (forall b cs, w_heap w !! b = Some cs -> exists r v xs, w_regs w !! r = Some v /\ v_blk v = Some b /\ view w !! r = Some xs /\ length cs = v_cap v /\ take (length xs) cs = Live <$> xs /\
     (t_triv tr = false -> drop (length xs) cs = replicate (v_cap v - length xs) Raw)) /\
  (forall r q v o b, w_regs w !! r = Some v -> w_regs w !! q = Some o -> v_blk v = Some b -> v_blk o = Some b -> r = q) /\
  (forall r v b, w_regs w !! r = Some v -> v_blk v = Some b -> is_Some (w_heap w !! b)).
Proof.
  intros Hm HR. pose proof (xreach_inv _ Hm HR) as HI. pose proof HI as (Hlen & Hv & Hd & Ho). split; [|split; [exact Hd|]].
  - intros b cs Hb. destruct (Ho b) as (r & v & Hr & Hvb); [eauto|]. destruct (reg_of _ _ _ r HI) as (v' & xs & Hr' & Hx); [apply lookup_lt_Some in Hr; exact Hr|]. replace v' with v in * by congruence.
    exists r, v, xs. destruct (Hv _ _ _ Hr Hx) as (Hl & _ & H1). rewrite Hvb in H1. destruct H1 as (R & H1 & HR1 & Hc). assert (cs = (Live <$> xs) ++ R) as -> by congruence.
    split; [assumption|]. split; [assumption|]. split; [assumption|]. rewrite app_length, fmap_length. split; [assumption|]. replace (length xs) with (length (Live <$> xs)) at 1 2 by apply fmap_length. rewrite take_app, drop_app. split; [reflexivity|].
    intros Ht. replace (v_cap v - length xs) with (length R) by lia. clear -HR1 Ht. induction HR1 as [|c R Hc _ IH]; [reflexivity|]. cbn [length replicate]. f_equal; [|assumption]. destruct Hc as [Hc| ->]; [congruence|reflexivity].
  - intros r v b Hr Hvb. destruct (reg_of _ _ _ r HI) as (v' & xs & Hr' & Hx); [apply lookup_lt_Some in Hr; exact Hr|]. replace v' with v in * by congruence. destruct (Hv _ _ _ Hr Hx) as (_ & _ & H1). rewrite Hvb in H1. destruct H1 as (R & -> & _). eauto.
Qed.
(** Taking storage and giving it to a vector moves no element: data(), size() and capacity() of the second vector are those of the
    first, no cell changes, and nothing is copied (so no exception is possible). *)
Theorem C79_handover w r k q v : machine64 tr -> xreach w -> xpre (Relinquish r k) w -> is_vec w q -> (q = r \/ fresh w q) -> w_regs w !! r = Some v ->
  exists w1 w2, xexec (Relinquish r k) w = Ret (Ptr (v_blk v)) w1 /\ xpre (Attach q k) w1 /\ xexec (Attach q k) w1 = Ret Done w2 /\
    w_regs w2 = <[q := v]> (<[r := mkV None 0 0]> (w_regs w)) /\ w_heap w1 = w_heap w /\ w_heap w2 = w_heap w /\ w_orc w2 = w_orc w.
Proof.
  intros Hm HR Hp [Hqn Hq] Hfq Hr. pose proof (xreach_inv _ Hm HR) as HI. destruct Hp as ([Hrn Hrl] & [Hkn Hk] & (o & Eo & Hb)). destruct (reg_of _ _ _ _ HI Hk) as (o' & ys & Eo' & Ey). replace o' with o in * by congruence.
  destruct (null_vec _ _ _ _ _ _ HI Eo Ey Hb) as [-> ->]. assert (r <> k) by lia. assert (q <> k) by lia.
  set (w1 := mkW (w_heap w) (<[k := v]> (<[r := mkV None 0 0]> (w_regs w))) (w_orc w)). assert (Hn : exists o2, <[r := mkV None 0 0]> (w_regs w) !! q = Some o2 /\ v_blk o2 = None).
  { destruct (decide (q = r)) as [->|Hne]; [exists (mkV None 0 0); split; [apply list_lookup_insert; assumption|reflexivity]|]. destruct Hfq as [->|Hfq]; [congruence|]. rewrite list_lookup_insert_ne by congruence. exact Hfq. }
  destruct Hn as (o2 & Hq2 & Hb2). exists w1, (mkW (w_heap w) (<[q := v]> (<[r := mkV None 0 0]> (w_regs w))) (w_orc w)). split; [|split; [|split]].
  - cbn [Handover.xexec]. unfold relinquish, bind, get, set, ret. cbv beta. rewrite !Hr. cbv beta iota. cbn [w_regs w_heap w_orc]. rewrite list_lookup_insert_ne by congruence. rewrite Eo. rewrite vec_eta. reflexivity.
  - cbn [xpre]. unfold is_vec, is_place, fresh. cbn [w1 w_regs]. rewrite !insert_length. split; [auto|]. split; [|auto]. rewrite list_lookup_insert_ne by congruence. eauto.
  - cbn [Handover.xexec]. unfold attach, bind, get, set, ret. cbv beta. subst w1. cbn [w_regs w_heap w_orc]. rewrite !list_lookup_insert by (rewrite insert_length; assumption). cbv beta iota. cbn [w_regs w_heap w_orc]. rewrite list_lookup_insert_ne by congruence. rewrite Hq2. cbn [w_regs w_heap w_orc].
    rewrite list_lookup_insert_ne by congruence. rewrite list_lookup_insert by (rewrite insert_length; assumption). rewrite vec_eta. f_equal. f_equal. rewrite (list_insert_commute _ q k) by congruence. rewrite list_insert_insert. rewrite (list_insert_commute _ k q) by congruence. f_equal. apply list_insert_id. rewrite !list_lookup_insert_ne by congruence. exact Eo.
  - cbn [w_regs w_heap w_orc w1]. auto.
Qed.
(** compactResize and shrink_to_fit leave no spare capacity, unless the allocation or a constructor throws inside shrink_to_fit. *)
Lemma shrunk r xs L w w' : machine64 tr -> Inv (w_heap w) (w_regs w) L -> L !! r = Some xs -> w_orc w = [] -> shrink_to_fit tr moved r w = Ret tt w' ->
  exists v, w_regs w' !! r = Some v /\ v_sz v = length xs /\ v_cap v = length xs.
Proof.
  intros Hm HI Hx Ho HE. destruct (reg_of _ _ _ r HI) as (v & xs' & Hr & Hx'); [destruct HI as [-> _]; apply lookup_lt_Some in Hx; exact Hx|]. replace xs' with xs in * by congruence.
  destruct w as [h rg o]. cbn [w_heap w_regs w_orc] in *. subst o. eapply (quiet_shrink tr moved dflt); [exact Hm|exact Hr|exact (Inv_St tr _ _ _ _ _ _ HI Hr Hx)|exact HE].
Qed.
Theorem C79_no_spare w r n : machine64 tr -> xreach w -> w_orc w = [] ->
  (forall w', xpre (CompactResize r n) w -> xexec (CompactResize r n) w = Ret Done w' -> exists v, w_regs w' !! r = Some v /\ v_sz v = n /\ v_cap v = n) /\
  (forall x w', xpre (Plain (Shrink r)) w -> xexec (Plain (Shrink r)) w = Ret x w' -> exists v, w_regs w' !! r = Some v /\ v_sz v = v_cap v).
Proof.
  intros Hm HR Ho. pose proof (xreach_inv _ Hm HR) as HI. split.
  - intros w' ([_ Hr] & Hf & Hs) E. destruct (reg_of _ _ _ _ HI Hr) as (v & xs & Ev & Ex). pose proof (Inv_St tr _ _ _ _ _ _ HI Ev Ex) as HS.
    assert (W : wp (resize tr moved dflt r n) (fun _ h' rg' => Inv h' rg' (<[r := resized dflt n xs]> (view w))) (fun _ _ => True) (w_heap w) (w_regs w)).
    { eapply wp_resize; [exact Hm|exact Hf|exact Ev|exact HS| |auto]. intros v' h' HS' _. eapply Inv_back; [exact HI|exact Ev|exact HS']. }
    apply wp_of in W. pose proof (calm_resize tr moved dflt r n (w_heap w) (w_regs w)) as HC. rewrite <- Ho in HC. replace (mkW (w_heap w) (w_regs w) (w_orc w)) with w in HC by (destruct w; reflexivity).
    cbn [Handover.xexec] in E. unfold compact_resize, bind in E. destruct (resize tr moved dflt r n w) as [[] w1| |]; [|discriminate|discriminate]. destruct (shrink_to_fit tr moved r w1) as [[] w2| |] eqn:E2; [|discriminate|discriminate]. injection E as <-.
    destruct (shrunk r (resized dflt n xs) (<[r := resized dflt n xs]> (view w)) w1 w2) as (v2 & H1 & H2 & H3); [exact Hm|exact W|apply list_lookup_insert; apply lookup_lt_Some in Ex; exact Ex|rewrite HC; exact Ho|exact E2|].
    exists v2. split; [exact H1|]. rewrite H2, H3. assert (length (resized dflt n xs) = n); [|auto]. unfold resized. rewrite app_length, take_length, replicate_length. lia.
  - intros x w' (Hp & _) E. destruct Hp as (_ & Hl & _). cbn [dst] in Hl. destruct (lookup_lt_is_Some_2 (view w) r Hl) as [xs Hx]. cbn [Handover.xexec exec] in E. unfold none, bind in E. destruct (shrink_to_fit tr moved r w) as [[] w2| |] eqn:E2; [|discriminate|discriminate]. injection E as _ <-.
    destruct (shrunk r xs (view w) w w2 Hm HI Hx Ho E2) as (v & H1 & H2 & H3). exists v. split; [exact H1|congruence].
Qed.
End Props.
Print Assumptions C79_no_spare. Print Assumptions C79_calls. Print Assumptions C79_one_owner. Print Assumptions C79_handover. Print Assumptions C79_order.

(** ** Concrete runs *)
Section Check.
Context {V : Type} (tr : traits) (moved : V -> V) (dflt : V) (eqb ltb : V -> V -> bool) (ct : bool) (nv : nat).
Definition vecb (w : @world V) r : bool := (r <? nv) && (r <? length (w_regs w)).
Definition placeb (w : @world V) k : bool := (nv <=? k) && (k <? length (w_regs w)).
Definition freshb (w : @world V) r : bool := match w_regs w !! r with Some v => match v_blk v with None => true | Some _ => false end | None => false end.
Definition xpreb (o : @xop V) (w : @world V) : bool :=
  match o with
  | Plain o => preb tr moved dflt o (view w) && forallb (vecb w) (uses o)
  | Cmp _ r q => vecb w r && vecb w q
  | EraseValue r a => vecb w r && forallb (vecb w) (in_arg a) && match sval (view w) a with Some _ => true | None => false end
  | CompactResize r n => vecb w r && (N.of_nat n * t_size tr <? 2 ^ 64)%N && restorable tr
  | Relinquish r k => vecb w r && placeb w k && freshb w k
  | Attach r k => vecb w r && freshb w r && placeb w k
  | Dispose k => placeb w k
  end.
Lemma xpreb_ok o w : xpreb o w = true -> xpre tr dflt nv o w.
Proof.
  assert (HV : forall r, vecb w r = true -> is_vec nv w r) by (intros r H; unfold vecb, is_vec in *; lia). assert (HP : forall r, placeb w r = true -> is_place nv w r) by (intros r H; unfold placeb, is_place in *; lia).
  assert (HF : forall r, freshb w r = true -> fresh w r) by (intros r H; unfold freshb, fresh in *; destruct (w_regs w !! r) as [v|]; [|discriminate]; exists v; destruct (v_blk v) eqn:E; [discriminate|auto]).
  assert (HL : forall l, forallb (vecb w) l = true -> Forall (is_vec nv w) l) by (intros l H; rewrite forallb_forall in H; apply List.Forall_forall; auto).
  destruct o; cbn [xpreb xpre]; intros H; rewrite ?andb_true_iff in H; try (destruct (sval (view w) a) as [y|]; [|destruct H; discriminate]); repeat match goal with H : _ /\ _ |- _ => destruct H end; try (match goal with Hq : preb _ _ _ _ _ = true |- _ => apply preb_ok in Hq end); repeat match goal with |- _ /\ _ => split end; eauto; try (apply HV; assumption); try (apply HP; assumption).
  all: try (unfold fits64; lia).
Qed.
Fixpoint xgo (os : list (@xop V)) (w : @world V) : option (list (option (@xobs V)) * @world V) :=
  match os with
  | [] => Some ([], w)
  | o :: os' =>
      if xpreb o w then match xexec tr moved dflt eqb ltb ct o w with
                        | Ret x w' => r ← xgo os' w'; Some (Some x :: r.1, r.2)
                        | Thr w' => r ← xgo os' w'; Some (None :: r.1, r.2)
                        | Wrong => None
                        end
      else None
  end.
Lemma xgo_reach os : forall w xs w', xreach tr moved dflt eqb ltb ct nv w -> xgo os w = Some (xs, w') -> xreach tr moved dflt eqb ltb ct nv w'.
Proof.
  induction os as [|o os IH]; intros w xs w' HR E; cbn [xgo] in E; [injection E as <- <-; assumption|]. destruct (xpreb o w) eqn:Ep; [|discriminate]. apply xpreb_ok in Ep.
  destruct (xexec tr moved dflt eqb ltb ct o w) as [x w1|w1|] eqn:E1; [| |discriminate]; (destruct (xgo os w1) as [[ys w2]|] eqn:E2; [|discriminate]); injection E as <- <-; (eapply IH; [|exact E2]); [eapply xreach_ret|eapply xreach_thr]; eassumption.
Qed.
End Check.

Definition order_prog : list (@xop nat) :=
  [Plain (CtorList 0 [1; 2; 3]); Plain (CtorList 1 [1; 2]); Cmp Lt 1 0; Cmp Eq 0 1; Cmp Le 0 1; Cmp Ge 0 0; Plain (PushBack 1 (AEl 0 2) false); Cmp Eq 0 1; EraseValue 0 (AEl 0 0); Cmp Gt 0 1; CompactResize 0 1;
   Relinquish 1 2; Plain (CtorN 1 1); Cmp Lt 0 1; Plain (CtorEmpty 0); Attach 0 2; Cmp Ne 0 1].
Example C79_ex : exists w, xreach cls mv0 7 Nat.eqb Nat.ltb true 2 w /\ view w = [[1; 2; 3]; [7]; []] /\ size (w_heap w) = 2.
Proof. eexists. split; [eapply (xgo_reach cls mv0 7 Nat.eqb Nat.ltb true 2 order_prog (start 3 [])); [apply xreach_start|vm_compute; reflexivity]|]. vm_compute. auto. Qed.
Example C79_ex_results : exists p, (xgo cls mv0 7 Nat.eqb Nat.ltb true 2 order_prog (start 3 []) ≫= fun r => Some r.1) =
  Some [Some (Plainly ONone); Some (Plainly ONone); Some (Bool true); Some (Bool false); Some (Bool false); Some (Bool true); Some (Plainly ONone); Some (Bool true); Some Done; Some (Bool true); Some Done; Some (Ptr (Some p)); Some (Plainly ONone); Some (Bool true); Some (Plainly ONone); Some Done; Some (Bool true)].
Proof. eexists. vm_compute. reflexivity. Qed.
Example C79_order_ex : ordered Nat.eqb Nat.ltb.
Proof. repeat split; intros; lia. Qed.
(** an example for C79_no_spare: the spare capacity of 8 is given back *)
Example C79_no_spare_ex : exists w w' v v', xreach cls mv0 7 Nat.eqb Nat.ltb true 2 w /\ w_orc w = [] /\ xpre cls 7 2 (CompactResize 0 2) w /\ xexec cls mv0 7 Nat.eqb Nat.ltb true (CompactResize 0 2) w = Ret Done w' /\
  w_regs w !! 0 = Some v /\ (v_sz v, v_cap v) = (3, 8) /\ w_regs w' !! 0 = Some v' /\ (v_sz v', v_cap v') = (2, 2).
Proof.
  eexists _, _, _, _. split; [eapply (xgo_reach cls mv0 7 Nat.eqb Nat.ltb true 2 [Plain (CtorList 0 [1; 2; 3]); Plain (Reserve 0 8)] (start 2 [])); [apply xreach_start|vm_compute; reflexivity]|].
  split; [vm_compute; reflexivity|]. split; [apply (xpreb_ok cls mv0 7 Nat.eqb Nat.ltb true 2); vm_compute; reflexivity|]. split; [vm_compute; reflexivity|]. split; [vm_compute; reflexivity|]. split; [reflexivity|]. split; [vm_compute; reflexivity|reflexivity].
Qed.
(** the third comparison of two elements throws *)
Example C79_throw_ex : exists w w', xreach cls mv0 7 Nat.eqb Nat.ltb true 2 w /\ xpre cls 7 2 (Cmp Lt 0 1) w /\ xexec cls mv0 7 Nat.eqb Nat.ltb true (Cmp Lt 0 1) w = Thr w' /\ view w' = [[1; 2]; [1; 2; 3]] /\ view w = view w'.
Proof.
  eexists _, _. split; [eapply (xgo_reach cls mv0 7 Nat.eqb Nat.ltb true 2 [Plain (CtorList 0 [1; 2]); Plain (CtorList 1 [1; 2; 3])] (start 2 (replicate 9 false ++ [true]))); [apply xreach_start|vm_compute; reflexivity]|].
  split; [apply (xpreb_ok cls mv0 7 Nat.eqb Nat.ltb true 2); vm_compute; reflexivity|]. split; [vm_compute; reflexivity|]. split; vm_compute; reflexivity.
Qed.
(** Refuted: "a <= b only if a < b or a == b", for elements such as floating-point numbers.  [None] is a NaN: it is not less than, not
    greater than and not equal to anything.  With a = {NaN} and b = {1}, both a <= b and a >= b hold, though a < b, a == b and a > b do not. *)
Definition nan_eqb (x y : option nat) : bool := match x, y with Some a, Some b => a =? b | _, _ => false end.
Definition nan_ltb (x y : option nat) : bool := match x, y with Some a, Some b => a <? b | _, _ => false end.
Theorem C79_nan_refuted : exists os w, xreach int4 id (Some 0) nan_eqb nan_ltb false 2 w /\ view w = [[None]; [Some 1]] /\
  xgo int4 id (Some 0) nan_eqb nan_ltb false 2 os (start 2 []) =
    Some ([Some (Plainly ONone); Some (Plainly ONone); Some (Bool true); Some (Bool true); Some (Bool false); Some (Bool false); Some (Bool false); Some (Bool false)], w) /\
  drop 2 os = [Cmp Le 0 1; Cmp Ge 0 1; Cmp Lt 0 1; Cmp Eq 0 1; Cmp Gt 0 1; Cmp Eq 0 0].
Proof.
  exists [Plain (CtorList 0 [None]); Plain (CtorList 1 [Some 1]); Cmp Le 0 1; Cmp Ge 0 1; Cmp Lt 0 1; Cmp Eq 0 1; Cmp Gt 0 1; Cmp Eq 0 0]. eexists.
  split; [eapply (xgo_reach int4 id (Some 0) nan_eqb nan_ltb false 2 [Plain (CtorList 0 [None]); Plain (CtorList 1 [Some 1])] (start 2 [])); [apply xreach_start|vm_compute; reflexivity]|].
  split; [vm_compute; reflexivity|]. split; vm_compute; reflexivity.
Qed.
Print Assumptions C79_nan_refuted.
(** Refuted: "an empty vector can be given storage".  clear() keeps the storage; a vector that was cleared loses it when it is given
    other storage: the block is still allocated and nobody owns it. *)
Theorem C79_attach_cleared_refuted : exists w w' b, xreach cls mv0 7 Nat.eqb Nat.ltb true 2 w /\ view w = [[]; []; [4]] /\
  xexec cls mv0 7 Nat.eqb Nat.ltb true (Attach 0 2) w = Ret Done w' /\ is_Some (w_heap w' !! b) /\ Forall (fun v => v_blk v <> Some b) (w_regs w').
Proof.
  eexists _, _, 0. split; [eapply (xgo_reach cls mv0 7 Nat.eqb Nat.ltb true 2 [Plain (CtorList 0 [1; 2; 3]); Plain (Clear 0); Plain (CtorList 1 [4]); Relinquish 1 2] (start 3 [])); [apply xreach_start|vm_compute; reflexivity]|].
  split; [vm_compute; reflexivity|]. split; [vm_compute; reflexivity|]. split; [exists [Raw; Raw; Raw]; vm_compute; reflexivity|]. vm_compute. repeat constructor; discriminate.
Qed.
Print Assumptions C79_attach_cleared_refuted.
