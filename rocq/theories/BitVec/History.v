(** Programs over several bit vectors: the code and the list specification give the same answers. *)
From stdpp Require Import list.
From Coq Require Import Arith NArith ZArith Lia.
From Coq Require Import ZifyBool ZifyNat ZifyN.
From Verif.Common Require Import Res Word WordFacts.
From Verif.BitVec Require Import Model Bits VisitProof Loops Spec SpecFacts OpsProof Popcount Observe HexProof.
Ltac Zify.zify_post_hook ::= Z.div_mod_to_equations.
Local Open Scope nat_scope.
Local Open Scope res_scope.

(** |=, &=, ^=, -=, or_not, view assignment *)
Inductive bkind := BOr | BAnd | BXor | BSub | BOrNot | BAssign.
Definition bk_spec (k : bkind) : bool -> bool -> bool :=
  match k with BOr => orb | BAnd => andb | BXor => xorb | BSub => b_sub | BOrNot => b_ornot | BAssign => b_copy end.

(** register r, view [f,l), other register s, view [g,h) *)
Inductive op :=
  | ONew (n : nat) (v : bool)                        (* a new vector at the end of the registers *)
  | OOfWords (ws : list N)                           (* bit_vector{w0, w1, ...} *)
  | OCopy (r s : nat)
  | OGet (r i : nat) | OSet (r i : nat) (b : bool) | OFlip (r i : nat)
  | OFill (r : nat) (b : bool) | OFlipAll (r : nat)   (* set(), reset(), flip() of the whole vector *)
  | OVSet (r f l : nat) | OVReset (r f l : nat) | OVFlip (r f l : nat)
  | OBin (k : bkind) (r f l s g h : nat)
  | OShl (r f l n : nat) | OShr (r f l n : nat)
  | OResize (r n : nat) (v : bool)
  | OStore (r f l : nat) (v : N)                      (* view = integer *)
  | OAny (r : nat) | OEvery (r : nat) | OCount (r : nat) | OFindFirst (r : nat)
  | OVAny (r f l : nat) | OVEvery (r f l : nat) | OVCount (r f l : nat) | OVFindFirst (r f l : nat) | OVFindNext (r f l i : nat)
  | OEq (r f l s g h : nat) | OContains (r f l s g h : nat) | ODisjoint (r f l s g h : nat)
  | OString (r f l : nat) | OBinString (r : nat) | OULL (r : nat) | OSize (r : nat).
Inductive ans := AU | AB (b : bool) | AN (n : N) | AI (o : option nat) | AS (s : list N).

(** ** the specification *)
Definition regs := list (list bool).
Definition reg (m : regs) (r : nat) : list bool := nth r m [].
Definition vsub (m : regs) (r f l : nat) : list bool := sub f l (reg m r).
Definition put (m : regs) (r : nat) (b : list bool) : regs := firstn r m ++ b :: skipn (S r) m.
Definition spec_step (m : regs) (o : op) : regs * ans :=
  match o with
  | ONew n v => (m ++ [repeat v n], AU)
  | OOfWords ws => (m ++ [concat (map (digits 64) ws)], AU)
  | OCopy r s => (put m r (reg m s), AU)
  | OGet r i => (m, AB (nth i (reg m r) false))
  | OSet r i b => (put m r (splice i (S i) [b] (reg m r)), AU)
  | OFlip r i => (put m r (splice i (S i) [negb (nth i (reg m r) false)] (reg m r)), AU)
  | OFill r b => (put m r (repeat b (length (reg m r))), AU)
  | OFlipAll r => (put m r (map negb (reg m r)), AU)
  | OVSet r f l => (put m r (splice f l (repeat true (l - f)) (reg m r)), AU)
  | OVReset r f l => (put m r (splice f l (repeat false (l - f)) (reg m r)), AU)
  | OVFlip r f l => (put m r (splice f l (map negb (vsub m r f l)) (reg m r)), AU)
  | OBin k r f l s g h => (put m r (splice f l (map2 (bk_spec k) (vsub m r f l) (vsub m s g h)) (reg m r)), AU)
  | OShl r f l n => (put m r (splice f l (shl_spec n (vsub m r f l)) (reg m r)), AU)
  | OShr r f l n => (put m r (splice f l (shr_spec n (vsub m r f l)) (reg m r)), AU)
  | OResize r n v => (put m r (resize_spec n v (reg m r)), AU)
  | OStore r f l v => (put m r (splice f l (digits (l - f) v) (reg m r)), AU)
  | OAny r => (m, AB (any_spec (reg m r)))
  | OEvery r => (m, AB (every_spec (reg m r)))
  | OCount r => (m, AN (N.of_nat (count_spec (reg m r))))
  | OFindFirst r => (m, AI (find_spec (reg m r)))
  | OVAny r f l => (m, AB (any_spec (vsub m r f l)))
  | OVEvery r f l => (m, AB (every_spec (vsub m r f l)))
  | OVCount r f l => (m, AN (N.of_nat (count_spec (vsub m r f l))))
  | OVFindFirst r f l => (m, AI (find_spec (vsub m r f l)))
  | OVFindNext r f l i => (m, AI (find_next_spec i (vsub m r f l)))
  | OEq r f l s g h => (m, AB (bool_decide (vsub m r f l = vsub m s g h)))
  | OContains r f l s g h => (m, AB (contains_spec (vsub m r f l) (vsub m s g h)))
  | ODisjoint r f l s g h => (m, AB (disjoint_spec (vsub m r f l) (vsub m s g h)))
  | OString r f l => (m, AS (string_spec (vsub m r f l)))
  | OBinString r => (m, AS (map digit_char (rev (reg m r))))
  | OULL r => (m, AN (value (firstn 64 (reg m r))))
  | OSize r => (m, AN (N.of_nat (length (reg m r))))
  end.

(** ** what the caller must respect, in terms of the current registers.  The documented preconditions: indices
    and views in range, operands of equal width.  And the cases where the code is wrong are left out, each with a
    refuting theorem in Props.v: [find_safe], overlapping operands, assignment between disjoint views the wrong way
    round, contains with a narrower operand, resize with true of a partly filled last word, storing an integer
    into a view that straddles two words. *)
Definition view_in (m : regs) (r f l : nat) : Prop := r < length m /\ f <= l /\ l <= length (reg m r).
Definition no_clobber (k : bkind) (r f s g h : nat) : Prop :=
  r <> s \/ f <= g \/ match k with BAssign => f = h | _ => h <= f end.
Definition valid (m : regs) (o : op) : Prop :=
  match o with
  | ONew _ _ => True
  | OOfWords ws => Forall (fun w => (w < 2 ^ 64)%N) ws
  | OCopy r s => r < length m /\ s < length m
  | OGet r i | OSet r i _ | OFlip r i => r < length m /\ i < length (reg m r)
  | OFill r _ | OFlipAll r | OAny r | OEvery r | OCount r | OFindFirst r | OBinString r | OULL r | OSize r => r < length m
  | OVSet r f l | OVReset r f l | OVFlip r f l | OShl r f l _ | OShr r f l _ | OVAny r f l | OVEvery r f l | OVCount r f l | OString r f l => view_in m r f l
  | OVFindFirst r f l => view_in m r f l /\ find_safe f l
  | OVFindNext r f l i => view_in m r f l /\ find_safe (f + i) l
  | OBin k r f l s g h => view_in m r f l /\ view_in m s g h /\ h - g = l - f /\ no_clobber k r f s g h
  | OEq r f l s g h | ODisjoint r f l s g h => view_in m r f l /\ view_in m s g h
  | OContains r f l s g h => view_in m r f l /\ view_in m s g h /\ h - g = l - f
  | OResize r n v => r < length m /\ (v = true -> n <= length (reg m r) \/ length (reg m r) mod 64 = 0)
  | OStore r f l v => view_in m r f l /\ f < l /\ f / 64 = (l - 1) / 64 /\ (v < 2 ^ 64)%N
  end.

(** ** the code *)
Definition get_reg (ss : list storage) (r : nat) : res storage := of_option (ss !! r).
Definition upd (ss : list storage) (r : nat) (f : storage -> res storage) : res (list storage * ans) :=
  let* st := get_reg ss r in let* st' := f st in Ok (<[r := st']> ss, AU).
Definition ask (ss : list storage) (r : nat) (f : storage -> res ans) : res (list storage * ans) :=
  let* st := get_reg ss r in let* a := f st in Ok (ss, a).
Definition ask2 (ss : list storage) (r s : nat) (f : storage -> storage -> res bool) : res (list storage * ans) :=
  let* st := get_reg ss r in let* ot := get_reg ss s in let* b := f st ot in Ok (ss, AB b).
Definition bk_word (k : bkind) : N -> N -> N :=
  match k with BOr => g_or | BAnd => g_and | BXor => g_xor | BSub => g_sub | BOrNot => g_ornot | BAssign => g_copy end.
Definition code_bin (k : bkind) (f l : nat) (o : operand) (g h : nat) (st : storage) : res storage :=
  match k with BAssign => view_assign f l o g h st | _ => bin_assign (bk_word k) f l o g h st end.
Definition code_step (ss : list storage) (o : op) : res (list storage * ans) :=
  match o with
  | ONew n v => let* st := make n v in Ok (ss ++ [st], AU)
  | OOfWords ws => let* st := vec_of_list ws in Ok (ss ++ [st], AU)
  | OCopy r s => let* st := get_reg ss s in let* _ := get_reg ss r in Ok (<[r := st]> ss, AU)      (* std::vector copy *)
  | OGet r i => ask ss r (fun st => rmap AB (vec_get st i))
  | OSet r i b => upd ss r (fun st => vec_set st i b)
  | OFlip r i => upd ss r (fun st => vec_flip st i)
  | OFill r b => upd ss r (fill_all b)
  | OFlipAll r => upd ss r vec_flip_all
  | OVSet r f l => upd ss r (view_set f l)
  | OVReset r f l => upd ss r (view_reset f l)
  | OVFlip r f l => upd ss r (view_flip f l)
  | OBin k r f l s g h =>
      let* ot := get_reg ss s in
      upd ss r (code_bin k f l (if r =? s then Same else Other ot) g h)
  | OShl r f l n => upd ss r (view_shl f l n)
  | OShr r f l n => upd ss r (view_shr f l n)
  | OResize r n v => upd ss r (fun st => resize st n v)
  | OStore r f l v => upd ss r (view_store v f l)
  | OAny r => ask ss r (fun st => rmap AB (vec_any st))
  | OEvery r => ask ss r (fun st => rmap AB (vec_every st))
  | OCount r => ask ss r (fun st => rmap AN (vec_count st))
  | OFindFirst r => ask ss r (fun st => rmap AI (vec_find_first st))
  | OVAny r f l => ask ss r (fun st => rmap AB (view_any st f l))
  | OVEvery r f l => ask ss r (fun st => rmap AB (view_every st f l))
  | OVCount r f l => ask ss r (fun st => rmap AN (view_count st f l))
  | OVFindFirst r f l => ask ss r (fun st => rmap AI (view_find_first st f l))
  | OVFindNext r f l i => ask ss r (fun st => rmap AI (view_find_next st f l i))
  | OEq r f l s g h => ask2 ss r s (fun st ot => view_eq st f l ot g h)
  | OContains r f l s g h => ask2 ss r s (fun st ot => view_contains st f l ot g h)
  | ODisjoint r f l s g h => ask2 ss r s (fun st ot => view_disjoint st f l ot g h)
  | OString r f l => ask ss r (fun st => rmap AS (view_string st f l))
  | OBinString r => ask ss r (fun st => rmap AS (vec_to_string st))
  | OULL r => ask ss r (fun st => rmap AN (vec_to_ullong st))
  | OSize r => ask ss r (fun st => Ok (AN (N.of_nat (s_sz st))))
  end.

Fixpoint spec_run (m : regs) (os : list op) : regs * list ans :=
  match os with
  | [] => (m, [])
  | o :: r => let '(m1, a) := spec_step m o in let '(m2, l) := spec_run m1 r in (m2, a :: l)
  end.
Fixpoint valid_run (m : regs) (os : list op) : Prop :=
  match os with [] => True | o :: r => valid m o /\ valid_run (fst (spec_step m o)) r end.
Fixpoint code_run (ss : list storage) (os : list op) : res (list storage * list ans) :=
  match os with
  | [] => Ok (ss, [])
  | o :: r => let* (s1, a) := code_step ss o in let* (s2, l) := code_run s1 r in Ok (s2, a :: l)
  end.

(** ** refinement *)
Definition rep (ss : list storage) (m : regs) : Prop := Forall wf ss /\ map bits ss = m.
Lemma rep_reg ss m r : rep ss m -> r < length m -> exists st, ss !! r = Some st /\ wf st /\ bits st = reg m r /\ s_sz st = length (reg m r).
Proof.
  intros [Hw <-] Hr. rewrite map_length in Hr. destruct (lookup_lt_is_Some_2 ss r Hr) as [st Hs]. exists st. split; [assumption|].
  rewrite Forall_lookup in Hw. split; [eauto|]. assert (E : reg (map bits ss) r = bits st).
  { unfold reg. rewrite (nth_lookup_Some _ _ _ (bits st)); [reflexivity|]. rewrite list_lookup_fmap, Hs. reflexivity. }
  rewrite E. split; [reflexivity|]. symmetry. apply bits_length.
Qed.
Lemma rep_put ss m r st b : rep ss m -> r < length m -> wf st -> bits st = b -> rep (<[r := st]> ss) (put m r b).
Proof.
  intros [Hw <-] Hr Hst <-. rewrite map_length in Hr. split; [apply Forall_insert; assumption|].
  unfold put. rewrite (insert_take_drop ss r st) by assumption. change (map bits) with (fmap (M := list) bits).
  rewrite fmap_app, fmap_cons, fmap_take, fmap_drop. reflexivity.
Qed.
Lemma rep_upd ss m r (f : storage -> res storage) b : rep ss m -> r < length m ->
  (forall st, wf st -> bits st = reg m r -> s_sz st = length (reg m r) -> exists st', f st = Ok st' /\ wf st' /\ bits st' = b) ->
  exists ss', upd ss r f = Ok (ss', AU) /\ rep ss' (put m r b).
Proof.
  intros HR Hr Hf. destruct (rep_reg ss m r HR Hr) as (st & Hs & Hwf & Hb & Hz). unfold upd, get_reg. rewrite Hs. cbn [of_option rbind].
  destruct (Hf st Hwf Hb Hz) as (st' & -> & Hw' & Hb'). cbn [rbind]. eexists. split; [reflexivity|]. apply rep_put; assumption.
Qed.
Lemma rep_ask ss m r (f : storage -> res ans) a : rep ss m -> r < length m ->
  (forall st, wf st -> bits st = reg m r -> s_sz st = length (reg m r) -> f st = Ok a) -> ask ss r f = Ok (ss, a).
Proof.
  intros HR Hr Hf. destruct (rep_reg ss m r HR Hr) as (st & Hs & Hwf & Hb & Hz). unfold ask, get_reg. rewrite Hs. cbn [of_option rbind].
  rewrite Hf by assumption. reflexivity.
Qed.
Lemma rep_ask2 ss m r s (f : storage -> storage -> res bool) a : rep ss m -> r < length m -> s < length m ->
  (forall st ot, wf st -> bits st = reg m r -> s_sz st = length (reg m r) -> wf ot -> bits ot = reg m s -> s_sz ot = length (reg m s) -> f st ot = Ok a) ->
  ask2 ss r s f = Ok (ss, AB a).
Proof.
  intros HR Hr Hs Hf. destruct (rep_reg ss m r HR Hr) as (st & Hst & Hwf & Hb & Hz). destruct (rep_reg ss m s HR Hs) as (ot & Hot & Hwo & Hbo & Hzo).
  unfold ask2, get_reg. rewrite Hst, Hot. cbn [of_option rbind]. rewrite Hf by assumption. reflexivity.
Qed.

(** the words of an initializer list *)
Lemma store_list_ok ws : Forall w64 ws -> forall i st, wf st -> s_sz st = 64 * (i + length ws) ->
  exists st', vec_store_list ws i st = Ok st' /\ wf st' /\ bits st' = firstn (64 * i) (bits st) ++ concat (map (digits 64) ws).
Proof.
  intros Hw. induction Hw as [|w ws Hw Hws IH]; intros i st Hwf Hz; cbn [vec_store_list length map concat] in *.
  - exists st. split; [reflexivity|]. split; [assumption|]. rewrite app_nil_r, firstn_all2; [reflexivity|]. rewrite bits_length. lia.
  - replace (Nat.min ((i + 1) * 64) (s_sz st)) with (i * 64 + 64) by lia.
    destruct (view_store_ok w st (i * 64) (i * 64 + 64) Hw Hwf) as (st1 & -> & Hz1 & Hw1 & Hb1); [lia|lia|lia|]. cbn [rbind].
    destruct (IH (S i) st1 Hw1) as (st2 & -> & Hw2 & Hb2); [lia|]. exists st2. split; [reflexivity|]. split; [assumption|].
    rewrite Hb2, Hb1, app_assoc. f_equal. unfold splice. rewrite app_assoc, firstn_app, firstn_all2.
    + rewrite app_length, firstn_length, bits_length, digits_length. replace (64 * S i - _) with 0 by lia. cbn [firstn]. rewrite app_nil_r.
      f_equal; [f_equal; lia|]. f_equal. lia.
    + rewrite app_length, firstn_length, bits_length, digits_length. lia.
Qed.
Lemma of_words_ok ws : Forall w64 ws -> exists st, vec_of_list ws = Ok st /\ wf st /\ bits st = concat (map (digits 64) ws).
Proof.
  intros Hw. unfold vec_of_list. destruct (make_ok (length ws * 64) false) as (st0 & -> & Hz & Hwf & _). cbn [rbind].
  destruct (store_list_ok ws Hw 0 st0 Hwf) as (st & -> & Hwf' & Hb); [lia|]. exists st. split; [reflexivity|]. split; [assumption|].
  rewrite Hb, Nat.mul_0_r. reflexivity.
Qed.

Lemma wop_all k : word_op (bk_word k) (bk_spec k).
Proof. destruct k; [apply wop_or|apply wop_and|apply wop_xor|apply wop_sub|apply wop_ornot|apply wop_copy]. Qed.
Lemma code_bin_eq k f l o g h st : (k = BAssign -> match o with Same => f <= g \/ f = h | _ => True end) -> g <= h ->
  code_bin k f l o g h st = bin_assign (bk_word k) f l o g h st.
Proof.
  intros Hk Hgh. destruct k; try reflexivity. specialize (Hk eq_refl). unfold code_bin, view_assign. cbn [bk_word].
  destruct o; [|reflexivity]. cbn [orb]. destruct (Nat.ltb_spec f g); [reflexivity|]. destruct (Nat.leb_spec f h); [reflexivity|lia].
Qed.

Lemma step_ok ss m o : rep ss m -> valid m o -> exists ss', code_step ss o = Ok (ss', snd (spec_step m o)) /\ rep ss' (fst (spec_step m o)).
Proof.
  intros HR HV. destruct o; cbn [spec_step code_step fst snd valid] in *.
  - destruct (make_ok n v) as (st & -> & Hz & Hwf & Hb). cbn [rbind]. eexists. split; [reflexivity|]. destruct HR as [H1 <-]. split.
    + apply Forall_app. auto.
    + rewrite map_app. cbn [map]. rewrite Hb. reflexivity.
  - destruct (of_words_ok ws HV) as (st & -> & Hwf & Hb). cbn [rbind]. eexists. split; [reflexivity|]. destruct HR as [H1 <-]. split.
    + apply Forall_app. auto.
    + rewrite map_app. cbn [map]. rewrite Hb. reflexivity.
  - destruct HV as [V1 V2]. destruct (rep_reg ss m r HR V1) as (st & Hst & _). destruct (rep_reg ss m s HR V2) as (ot & Hot & Hwo & Hbo & _).
    unfold get_reg. rewrite Hst, Hot. cbn [of_option rbind]. eexists. split; [reflexivity|]. apply rep_put; assumption.
  - destruct HV as [V1 V2]. exists ss. split; [|assumption]. apply (rep_ask ss m); [assumption|assumption|]. intros st Hwf Hb Hz. rewrite vec_get_ok by (assumption || lia). cbn [rmap rbind]. rewrite Hb. reflexivity.
  - destruct HV as [V1 V2]. apply rep_upd; [assumption|assumption|]. intros st Hwf Hb Hz. destruct (vec_set_ok st i b Hwf) as (st' & ? & _ & ? & E); [lia|]. rewrite Hb in E. eauto.
  - destruct HV as [V1 V2]. apply rep_upd; [assumption|assumption|]. intros st Hwf Hb Hz. destruct (vec_flip_ok st i Hwf) as (st' & ? & _ & ? & E); [lia|]. rewrite Hb in E. eauto.
  - apply rep_upd; [assumption|assumption|]. intros st Hwf Hb Hz. destruct (fill_all_ok st b Hwf) as (st' & ? & _ & ? & E). rewrite Hz in E. eauto.
  - apply rep_upd; [assumption|assumption|]. intros st Hwf Hb Hz. destruct (vec_flip_all_ok st Hwf) as (st' & ? & _ & ? & E). rewrite Hb in E. eauto.
  - destruct HV as (V1 & V2 & V3). apply rep_upd; [assumption|assumption|]. intros st Hwf Hb Hz. destruct (view_set_ok st f l Hwf) as (st' & ? & _ & ? & E); [lia|lia|]. rewrite Hb in E. eauto.
  - destruct HV as (V1 & V2 & V3). apply rep_upd; [assumption|assumption|]. intros st Hwf Hb Hz. destruct (view_reset_ok st f l Hwf) as (st' & ? & _ & ? & E); [lia|lia|]. rewrite Hb in E. eauto.
  - destruct HV as (V1 & V2 & V3). apply rep_upd; [assumption|assumption|]. intros st Hwf Hb Hz. destruct (view_flip_ok st f l Hwf) as (st' & ? & _ & ? & E); [lia|lia|]. rewrite Hb in E. eauto.
  - destruct HV as ((V1 & V2 & V3) & (W1 & W2 & W3) & Heq & Hnc).
    destruct (rep_reg ss m s HR W1) as (ot & Hot & Hwo & Hbo & Hzo). unfold get_reg at 1. rewrite Hot. cbn [of_option rbind].
    apply rep_upd; [assumption|assumption|]. intros st Hwf Hb Hz. unfold no_clobber in Hnc.
    destruct (Nat.eqb_spec r s) as [<-|Hne].
    + assert (ot = st) as -> by (apply bits_ext; congruence).
      rewrite code_bin_eq by (try assumption; intros ->; tauto).
      destruct (bin_assign_ok (bk_word k) (bk_spec k) st f l Same g h (wop_all k)) as (st' & ? & _ & ? & E); cbn [ost safe]; try assumption; try lia.
      { destruct k; lia. }
      cbn [ost] in E. rewrite Hb in E. eauto.
    + rewrite code_bin_eq by (try assumption; intros; exact I).
      destruct (bin_assign_ok (bk_word k) (bk_spec k) st f l (Other ot) g h (wop_all k)) as (st' & ? & _ & ? & E); cbn [ost safe]; try assumption; try lia.
      cbn [ost] in E. rewrite Hb, Hbo in E. eauto.
  - destruct HV as (V1 & V2 & V3). apply rep_upd; [assumption|assumption|]. intros st Hwf Hb Hz. destruct (view_shift_ok _ _ shl_ok st n f l Hwf) as (st' & ? & _ & ? & E); [lia|lia|]. rewrite Hb in E. eauto.
  - destruct HV as (V1 & V2 & V3). apply rep_upd; [assumption|assumption|]. intros st Hwf Hb Hz. destruct (view_shift_ok _ _ shr_ok st n f l Hwf) as (st' & ? & _ & ? & E); [lia|lia|]. rewrite Hb in E. eauto.
  - destruct HV as (V1 & V2). apply rep_upd; [assumption|assumption|]. intros st Hwf Hb Hz. destruct (resize_ok st n v Hwf) as (st' & ? & _ & ? & E); [rewrite Hz; assumption|]. rewrite Hb in E. eauto.
  - destruct HV as ((V1 & V2 & V3) & V4 & V5 & V6). apply rep_upd; [assumption|assumption|]. intros st Hwf Hb Hz. destruct (view_store_ok v st f l V6 Hwf) as (st' & ? & _ & ? & E); [lia|lia|lia|]. rewrite Hb in E. eauto.
  - exists ss. split; [|assumption]. apply (rep_ask ss m); [assumption|assumption|]. intros st Hwf Hb Hz. rewrite vec_any_ok by assumption. rewrite Hb. reflexivity.
  - exists ss. split; [|assumption]. apply (rep_ask ss m); [assumption|assumption|]. intros st Hwf Hb Hz. rewrite vec_every_ok by assumption. rewrite Hb. reflexivity.
  - exists ss. split; [|assumption]. apply (rep_ask ss m); [assumption|assumption|]. intros st Hwf Hb Hz. rewrite vec_count_ok by assumption. rewrite Hb. reflexivity.
  - exists ss. split; [|assumption]. apply (rep_ask ss m); [assumption|assumption|]. intros st Hwf Hb Hz. rewrite vec_find_first_ok by assumption. rewrite Hb. reflexivity.
  - destruct HV as (V1 & V2 & V3). exists ss. split; [|assumption]. apply (rep_ask ss m); [assumption|assumption|]. intros st Hwf Hb Hz. rewrite view_any_ok by (assumption || lia). rewrite Hb. reflexivity.
  - destruct HV as (V1 & V2 & V3). exists ss. split; [|assumption]. apply (rep_ask ss m); [assumption|assumption|]. intros st Hwf Hb Hz. rewrite view_every_ok by (assumption || lia). rewrite Hb. reflexivity.
  - destruct HV as (V1 & V2 & V3). exists ss. split; [|assumption]. apply (rep_ask ss m); [assumption|assumption|]. intros st Hwf Hb Hz. rewrite view_count_ok by (assumption || lia). rewrite Hb. reflexivity.
  - destruct HV as ((V1 & V2 & V3) & V4). exists ss. split; [|assumption]. apply (rep_ask ss m); [assumption|assumption|]. intros st Hwf Hb Hz. rewrite view_find_first_exact by (assumption || lia). rewrite find_actual_safe by (assumption || (rewrite bits_length; lia)). rewrite Hb. reflexivity.
  - destruct HV as ((V1 & V2 & V3) & V4). exists ss. split; [|assumption]. apply (rep_ask ss m); [assumption|assumption|]. intros st Hwf Hb Hz. rewrite view_find_next_ok by (assumption || lia). rewrite Hb. reflexivity.
  - destruct HV as ((V1 & V2 & V3) & (W1 & W2 & W3)). exists ss. split; [|assumption]. apply (rep_ask2 ss m); try assumption. intros st ot Hwf Hb Hz Hwo Hbo Hzo.
    destruct (view_eq_ok st f l ot g h) as (b & -> & Hiff); try assumption; try lia. f_equal. unfold vsub. rewrite <- Hb, <- Hbo.
    apply (bool_iff _ _ _ Hiff). apply bool_decide_eq_true.
  - destruct HV as ((V1 & V2 & V3) & (W1 & W2 & W3) & Heq). exists ss. split; [|assumption]. apply (rep_ask2 ss m); try assumption. intros st ot Hwf Hb Hz Hwo Hbo Hzo.
    rewrite view_contains_ok by (assumption || lia). unfold vsub. rewrite <- Hb, <- Hbo. reflexivity.
  - destruct HV as ((V1 & V2 & V3) & (W1 & W2 & W3)). exists ss. split; [|assumption]. apply (rep_ask2 ss m); try assumption. intros st ot Hwf Hb Hz Hwo Hbo Hzo.
    rewrite view_disjoint_ok by (assumption || lia). unfold vsub. rewrite <- Hb, <- Hbo. reflexivity.
  - destruct HV as (V1 & V2 & V3). exists ss. split; [|assumption]. apply (rep_ask ss m); [assumption|assumption|]. intros st Hwf Hb Hz. rewrite view_string_ok by (assumption || lia). rewrite Hb. reflexivity.
  - exists ss. split; [|assumption]. apply (rep_ask ss m); [assumption|assumption|]. intros st Hwf Hb Hz. rewrite vec_to_string_ok by assumption. rewrite Hb. reflexivity.
  - exists ss. split; [|assumption]. apply (rep_ask ss m); [assumption|assumption|]. intros st Hwf Hb Hz. rewrite vec_to_ullong_ok by assumption. rewrite Hb. reflexivity.
  - exists ss. split; [|assumption]. apply (rep_ask ss m); [assumption|assumption|]. intros st Hwf Hb Hz. rewrite Hz. reflexivity.
Qed.
Lemma run_ok os : forall ss m, rep ss m -> valid_run m os ->
  exists ss', code_run ss os = Ok (ss', snd (spec_run m os)) /\ rep ss' (fst (spec_run m os)).
Proof.
  induction os as [|o os IH]; intros ss m HR HV; cbn [code_run spec_run valid_run] in *; [exists ss; auto|].
  destruct HV as [V1 V2]. destruct (step_ok ss m o HR V1) as (s1 & -> & R1). cbn [rbind].
  destruct (spec_step m o) as [m1 a]. cbn [fst snd] in *. destruct (IH s1 m1 R1 V2) as (s2 & -> & R2). cbn [rbind].
  destruct (spec_run m1 os) as [m2 l]. cbn [fst snd] in *. eauto.
Qed.
