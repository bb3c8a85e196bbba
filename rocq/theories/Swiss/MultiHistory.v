(** Programs over several tables and node handles, and their refinement to [MultiSpec]. *)
From stdpp Require Import list.
From Coq Require Import Arith NArith ZArith Lia.
From Verif.Common Require Import Res Word WordFacts.
From Verif.Swiss Require Import Group GroupSpec Model Probe Inv TableInv Resize Ops MapSpec History Reserve Multi MultiSpec MultiProof.
Local Open Scope nat_scope.
Local Open Scope res_scope.
Local Arguments cnt : simpl never.
Local Arguments elems : simpl never.

Section MultiHistory.
Context {K V : Type} (hash : K -> N) (eqb : K -> K -> bool) (eeq : K * V -> K * V -> bool) (E : env).
Notation elt := (K * V)%type.
Notation table := (table K V).

(** One call; out-of-range register numbers are UB (excluded by [mop_ok]).  Exceptions leave the state of the
    objects as the code leaves it: a copy assignment builds a temporary first (phmap.hpp:1871-1876), a failing
    node insertion leaves the element in the node (2027-2038). *)
Definition mexec (ts : list table) (ns : list (option elt)) (o : mop K V)
  : res (list table * list (option elt) * mout K V) :=
  match o with
  | MOne i o1 =>
      let* t := load ts i in
      let* (t', r) := exec hash eqb E t o1 in Ok (<[i := t']> ts, ns, MR r)
  | MCopy i j =>
      let* _ := load ts i in
      let* t := load ts j in
      match copy hash E t with
      | BadAlloc => Ok (ts, ns, MThrew)
      | r => let* t' := r in Ok (<[i := t']> ts, ns, MDone)
      end
  | MMove i j =>
      let* _ := load ts i in
      let* t := load ts j in
      let '(new, rest) := move_out t in Ok (<[i := new]> (<[j := rest]> ts), ns, MDone)
  | MSwap i j =>
      let* ti := load ts i in
      let* tj := load ts j in Ok (<[i := tj]> (<[j := ti]> ts), ns, MDone)
  | MMerge i j =>
      if i =? j then UB
      else
        let* ti := load ts i in
        let* tj := load ts j in
        let* (ti', tj', threw) := merge hash eqb E ti tj in
        Ok (<[i := ti']> (<[j := tj']> ts), ns, if threw then MThrew else MDone)
  | MExtract i k n =>
      let* t := load ts i in
      let* _ := load ns n in
      let* (e, t') := erase_key hash eqb E t k in
      Ok (<[i := t']> ts, <[n := e]> ns, MNode e)
  | MInsertNode i n =>
      let* t := load ts i in
      let* nd := load ns n in
      match insert_node hash eqb E t nd with
      | BadAlloc => Ok (ts, ns, MThrew)
      | r => let* (t', nd', b) := r in Ok (<[i := t']> ts, <[n := nd']> ns, MBool b)
      end
  | MEq i j =>
      let* ti := load ts i in
      let* tj := load ts j in
      let* b := table_eq hash E eeq ti tj in Ok (ts, ns, MBool b)
  | MEraseIf i p =>
      let* t := load ts i in
      let* (t', c, seen) := erase_if E p t in Ok (<[i := t']> ts, ns, MErased c seen)
  end.
Fixpoint mrun (ts : list table) (ns : list (option elt)) (os : list (mop K V))
  : res (list table * list (option elt) * list (mout K V)) :=
  match os with
  | [] => Ok (ts, ns, [])
  | o :: os' =>
      let* (ts1, ns1, r) := mexec ts ns o in
      let* (ts2, ns2, rs) := mrun ts1 ns1 os' in Ok (ts2, ns2, r :: rs)
  end.

(** programs over [a] tables and [b] node handles *)
Definition mop_ok (a b : nat) (o : mop K V) : Prop :=
  match o with
  | MOne i o1 => i < a /\ op_ok E o1
  | MCopy i j | MMove i j | MSwap i j | MEq i j => i < a /\ j < a
  | MMerge i j => i < a /\ j < a /\ i <> j
  | MExtract i _ n | MInsertNode i n => i < a /\ n < b
  | MEraseIf i _ => i < a
  end.

Context (HE : env_ok E) (HK : KeyOK hash eqb) (HQ : EltOK eqb eeq).
Set Default Proof Using "HE HK HQ".
Notation good := (good hash eqb E).
Notation R := (@History.R K V hash eqb E).

Lemma upd_insert {A} (l : list A) i x : upd l i x = <[i := x]> l.
Proof using. revert i. induction l as [|a l IH]; intros [|i]; cbn; try reflexivity. f_equal. apply IH. Qed.
Lemma upd_length {A} (l : list A) i x : length (upd l i x) = length l.
Proof using. rewrite upd_insert. apply insert_length. Qed.

Lemma filter_perm {A} (p : A -> bool) (l l' : list A) : l ≡ₚ l' -> List.filter p l ≡ₚ List.filter p l'.
Proof using.
  induction 1 as [|x l l' _ IH|x y l|]; cbn; [reflexivity| | |etransitivity; eassumption].
  - destruct (p x); [constructor|]; assumption.
  - destruct (p x), (p y); try reflexivity. constructor.
Qed.
Lemma filter_all {A} (p : A -> bool) (l : list A) : (forall x, In x l -> p x = true) -> List.filter p l = l.
Proof using. induction l as [|x l IH]; cbn; [reflexivity|]. intros H. rewrite (H x) by auto. f_equal. apply IH. auto. Qed.
Lemma filter_none {A} (p : A -> bool) (l : list A) : (forall x, In x l -> p x = false) -> List.filter p l = [].
Proof using. induction l as [|x l IH]; cbn; [reflexivity|]. intros H. rewrite (H x) by auto. apply IH. auto. Qed.

Lemma same_assocs_perm (m1 m1' m2 m2' : list elt) : m1 ≡ₚ m1' -> m2 ≡ₚ m2' -> same_assocs eeq m1 m2 <-> same_assocs eeq m1' m2'.
Proof using.
  assert (H1 : forall l l' : list elt, l ≡ₚ l' -> forall e, (exists x, In x l /\ eeq x e = true) <-> (exists x, In x l' /\ eeq x e = true)).
  { intros l l' Hp e. split; intros (x & Hx & He); exists x; (split; [|assumption]); [|symmetry in Hp]; eapply Permutation_in; eassumption. }
  intros P1 P2. unfold same_assocs. split; intros H e; specialize (H e); specialize (H1 _ _ P1 e) as Q1; specialize (H1 _ _ P2 e) as Q2; tauto.
Qed.

Lemma look (ts : list table) ms i : Forall2 R ts ms -> i < length ts ->
  exists t, ts !! i = Some t /\ R t (mget ms i) /\ i < length ms.
Proof using.
  intros HF Hi. destruct (lookup_lt_is_Some_2 ts i Hi) as [t Ht].
  destruct (Forall2_lookup_l _ _ _ _ _ HF Ht) as (m & Hm & HR).
  exists t. split; [assumption|]. split; [|apply lookup_lt_Some in Hm; assumption].
  unfold mget. rewrite (nth_lookup_Some _ _ _ _ Hm). assumption.
Qed.

Lemma mexec_ok (ts : list table) ns ms o : Forall2 R ts ms -> mop_ok (length ts) (length ns) o ->
  exists ts' ns' r ms', mexec ts ns o = Ok (ts', ns', r) /\ s_mstep eqb eeq (ms, ns) o r (ms', ns') /\
    Forall2 R ts' ms' /\ length ts' = length ts /\ length ns' = length ns.
Proof.
  intros HF Ho. destruct o as [i o1|i j|i j|i j|i j|i k n|i n|i j|i p]; cbn [mop_ok mexec s_mstep] in *.
  - destruct Ho as [Hi Ho]. destruct (look _ _ _ HF Hi) as (t & Ht & HR & Him).
    rewrite (load_some _ _ _ Ht). cbn [rbind].
    destruct (exec_ok hash eqb E HE HK t _ o1 HR Ho) as (t' & r & m' & He & Hst & HR' & _). rewrite He. cbn [rbind].
    exists (<[i := t']> ts), ns, (MR r), (upd ms i m'). split; [reflexivity|]. split; [eauto|]. rewrite upd_insert.
    split; [apply Forall2_insert; assumption|]. split; [apply insert_length|reflexivity].
  - destruct Ho as [Hi Hj]. destruct (look _ _ _ HF Hi) as (ti & Hti & HRi & Him). destruct (look _ _ _ HF Hj) as (tj & Htj & HRj & Hjm).
    rewrite (load_some _ _ _ Hti), (load_some _ _ _ Htj). cbn [rbind].
    destruct (copy_ok hash eqb E HE HK tj (proj1 HRj)) as [[Hb _]|(t' & Hc & Hg & _ & _ & Hp & _)].
    + rewrite Hb. exists ts, ns, MThrew, ms. split; [reflexivity|]. split; [auto|]. auto.
    + rewrite Hc. cbn [rbind]. exists (<[i := t']> ts), ns, MDone, (upd ms i (mget ms j)). split; [reflexivity|]. split; [auto|].
      rewrite upd_insert. split; [|split; [apply insert_length|reflexivity]]. apply Forall2_insert; [assumption|].
      split; [assumption|]. rewrite Hp. apply HRj.
  - destruct Ho as [Hi Hj]. destruct (look _ _ _ HF Hi) as (ti & Hti & HRi & Him). destruct (look _ _ _ HF Hj) as (tj & Htj & HRj & Hjm).
    rewrite (load_some _ _ _ Hti), (load_some _ _ _ Htj). cbn [rbind move_out].
    exists (<[i := tj]> (<[j := empty_table]> ts)), ns, MDone.
    exists (if i =? j then ms else upd (upd ms i (mget ms j)) j []). split; [reflexivity|].
    destruct (Nat.eqb_spec i j) as [->|Hne].
    + split; [auto|]. rewrite list_insert_insert. rewrite Htj in Hti. injection Hti as <-. rewrite list_insert_id by assumption. auto.
    + split; [auto|]. rewrite !upd_insert. rewrite list_insert_commute by assumption.
      split; [|rewrite !insert_length; auto]. apply Forall2_insert; [apply Forall2_insert; assumption|]. split; [left; reflexivity|reflexivity].
  - destruct Ho as [Hi Hj]. destruct (look _ _ _ HF Hi) as (ti & Hti & HRi & Him). destruct (look _ _ _ HF Hj) as (tj & Htj & HRj & Hjm).
    rewrite (load_some _ _ _ Hti), (load_some _ _ _ Htj). cbn [rbind].
    exists (<[i := tj]> (<[j := ti]> ts)), ns, MDone, (upd (upd ms i (mget ms j)) j (mget ms i)). split; [reflexivity|]. split; [auto|].
    rewrite !upd_insert. split; [|rewrite !insert_length; auto]. destruct (Nat.eq_dec i j) as [->|Hne].
    + rewrite Htj in Hti. injection Hti as <-. apply Forall2_insert; [apply Forall2_insert; assumption|assumption].
    + rewrite list_insert_commute by assumption. apply Forall2_insert; [apply Forall2_insert; assumption|assumption].
  - destruct Ho as (Hi & Hj & Hne). destruct (look _ _ _ HF Hi) as (ti & Hti & HRi & Him). destruct (look _ _ _ HF Hj) as (tj & Htj & HRj & Hjm).
    destruct (Nat.eqb_spec i j); [contradiction|].
    rewrite (load_some _ _ _ Hti), (load_some _ _ _ Htj). cbn [rbind].
    destruct (merge_ok hash eqb E HE HK ti tj (proj1 HRi) (proj1 HRj)) as (ti' & tj' & b & mv & rs & Hm & Hgi & Hgj & P1 & P2 & P3 & P4 & P5).
    rewrite Hm. cbn [rbind].
    assert (Hmv : forall e, In e mv -> has_key eqb (mget ms i) e = false).
    { intros e He. unfold has_key. rewrite (R_absent hash eqb E HE HK _ _ _ HRi (P4 e He)). reflexivity. }
    rewrite list_insert_commute by assumption. destruct b.
    + exists (<[j := tj']> (<[i := ti']> ts)), ns, MThrew, (upd (upd ms i (mv ++ mget ms i)) j rs). split; [reflexivity|]. split.
      * right. split; [reflexivity|]. exists mv, rs. split; [rewrite <- P1; symmetry; apply HRj|]. split; [assumption|reflexivity].
      * rewrite !upd_insert. split; [|rewrite !insert_length; auto]. apply Forall2_insert; [apply Forall2_insert; [assumption|]|]; (split; [assumption|]).
        -- rewrite P2. f_equiv. apply HRi.
        -- assumption.
    + assert (Hrs : forall e, In e rs -> has_key eqb (mget ms i) e = true).
      { intros e He. unfold has_key. destruct (P5 eq_refl e He) as (x & Hx & Hk).
        apply elems_in in Hx. destruct Hx as [q Hq]. rewrite (R_present hash eqb E HE HK _ _ _ _ _ HRi Hq Hk). reflexivity. }
      assert (Hmj : mget ms j ≡ₚ mv ++ rs) by (rewrite <- P1; symmetry; apply HRj).
      eexists _, ns, MDone, _. split; [reflexivity|]. split; [left; split; reflexivity|].
      rewrite !upd_insert. split; [|rewrite !insert_length; auto]. apply Forall2_insert; [apply Forall2_insert; [assumption|]|]; (split; [assumption|]).
      * rewrite P2. f_equiv; [|apply HRi]. rewrite (filter_perm _ _ _ Hmj), List.filter_app.
        rewrite (filter_all _ mv), (filter_none _ rs), app_nil_r; [reflexivity| |].
        -- intros x Hx. rewrite (Hrs x Hx). reflexivity.
        -- intros x Hx. rewrite (Hmv x Hx). reflexivity.
      * rewrite P3, (filter_perm _ _ _ Hmj), List.filter_app. rewrite (filter_none _ mv), (filter_all _ rs) by assumption. reflexivity.
  - destruct Ho as [Hi Hn]. destruct (look _ _ _ HF Hi) as (t & Ht & HR & Him). destruct (lookup_lt_is_Some_2 ns n Hn) as [nd Hnd].
    rewrite (load_some _ _ _ Ht), (load_some _ _ _ Hnd). cbn [rbind].
    destruct (exec_ok hash eqb E HE HK t _ (OErase k) HR I) as (t' & r & m' & He & [Hst ->] & HR' & _). cbn [exec] in He.
    destruct (erase_key hash eqb E t k) as [[e t'']| | | |]; cbn [rbind] in He; try discriminate. injection He as <- <-. injection Hst as ->.
    cbn [rbind]. eexists _, _, _, _. split; [reflexivity|]. split; [rewrite !upd_insert; split; reflexivity|].
    split; [apply Forall2_insert; assumption|]. rewrite !insert_length. auto.
  - destruct Ho as [Hi Hn]. destruct (look _ _ _ HF Hi) as (t & Ht & HR & Him). destruct (lookup_lt_is_Some_2 ns n Hn) as [nd Hnd].
    rewrite (load_some _ _ _ Ht), (load_some _ _ _ Hnd). cbn [rbind].
    unfold nget. rewrite (nth_lookup_Some _ _ _ _ Hnd). unfold insert_node. destruct nd as [e|].
    + unfold has_key. destruct (present_or_absent eqb t (fst e)) as [(q & y & Hy & Hk)|Ha].
      * rewrite (R_present hash eqb E HE HK _ _ _ _ _ HR Hy Hk).
        rewrite (emplace_old hash eqb E HE HK t _ (snd e) q y (proj1 HR) Hy Hk). cbn [rbind].
        eexists _, _, _, _. split; [reflexivity|]. rewrite (list_insert_id ns n) by assumption. split; [auto|].
        rewrite (list_insert_id ts i) by assumption. auto.
      * rewrite (R_absent hash eqb E HE HK _ _ _ HR Ha).
        destruct (emplace_new hash eqb E HE HK t (fst e) (snd e) (proj1 HR) Ha) as [(Hb & _)|(t1 & q & Hem & Ht1 & Hsl1 & Hsz1 & Hp1 & _)].
        -- rewrite Hb. cbn [rbind]. eexists _, _, _, _. split; [reflexivity|]. split; [auto|]. auto.
        -- rewrite Hem. cbn [rbind]. eexists _, _, _, _. split; [reflexivity|]. rewrite !upd_insert. split; [left; split; reflexivity|].
           rewrite !insert_length. split; [|auto]. apply Forall2_insert; [assumption|]. split; [right; assumption|].
           rewrite Hp1, <- surjective_pairing. constructor. apply HR.
    + cbn [rbind]. eexists _, _, _, _. split; [reflexivity|]. rewrite (list_insert_id ns n) by assumption. split; [auto|].
      rewrite (list_insert_id ts i) by assumption. auto.
  - destruct Ho as [Hi Hj]. destruct (look _ _ _ HF Hi) as (ti & Hti & HRi & Him). destruct (look _ _ _ HF Hj) as (tj & Htj & HRj & Hjm).
    rewrite (load_some _ _ _ Hti), (load_some _ _ _ Htj). cbn [rbind].
    destruct (table_eq_ok hash eqb E HE HK eeq HQ ti tj (proj1 HRi) (proj1 HRj)) as (b & Hb & Hiff). rewrite Hb. cbn [rbind].
    exists ts, ns, (MBool b), ms. split; [reflexivity|]. split; [|auto]. exists b. split; [reflexivity|]. split; [reflexivity|].
    rewrite Hiff. apply same_assocs_perm; [apply HRi|apply HRj].
  - destruct (look _ _ _ HF Ho) as (t & Ht & HR & Him).
    rewrite (load_some _ _ _ Ht). cbn [rbind].
    destruct (erase_if_ok hash eqb E HE HK p t (proj1 HR)) as (t' & He & Hg & _ & Hel & _). rewrite He. cbn [rbind].
    eexists _, ns, _, _. split; [reflexivity|]. split.
    + exists (elems (t_slots t)). split; [f_equal; apply Permutation_length, filter_perm, HR|]. split; [apply HR|reflexivity].
    + rewrite upd_insert. rewrite insert_length. split; [|auto]. apply Forall2_insert; [assumption|]. split; [assumption|].
      rewrite Hel. apply filter_perm, HR.
Qed.

Lemma mrun_ok os : forall (ts : list table) ns ms, Forall2 R ts ms -> Forall (mop_ok (length ts) (length ns)) os ->
  exists ts' ns' rs ms', mrun ts ns os = Ok (ts', ns', rs) /\ s_mrun eqb eeq (ms, ns) os rs (ms', ns') /\ Forall2 R ts' ms'.
Proof.
  induction os as [|o os IH]; intros ts ns ms HF Ho.
  - exists ts, ns, [], ms. split; [reflexivity|]. split; [constructor|assumption].
  - inversion Ho as [|? ? Ho1 Ho2]; subst.
    destruct (mexec_ok ts ns ms o HF Ho1) as (ts1 & ns1 & r & ms1 & He & Hst & HF1 & Hl1 & Hl2).
    destruct (IH ts1 ns1 ms1 HF1) as (ts2 & ns2 & rs & ms2 & Hr & Hsr & HF2); [rewrite Hl1, Hl2; assumption|].
    exists ts2, ns2, (r :: rs), ms2. cbn [mrun]. rewrite He. cbn [rbind]. rewrite Hr. cbn [rbind].
    split; [reflexivity|]. split; [econstructor; eassumption|assumption].
Qed.

(** tables reachable by programs over several tables *)
Definition mreachable (t : table) : Prop :=
  exists a b os ts ns rs, Forall (mop_ok a b) os /\
    mrun (replicate a empty_table) (replicate b None) os = Ok (ts, ns, rs) /\ In t ts.
Lemma start_ok a : Forall2 R (replicate a empty_table) (replicate a []).
Proof using. induction a; cbn; [constructor|]. constructor; [split; [left; reflexivity|reflexivity]|assumption]. Qed.
Lemma mreachable_good t : mreachable t -> good t.
Proof.
  intros (a & b & os & ts & ns & rs & Ho & Hr & Hin).
  destruct (mrun_ok os (replicate a empty_table) (replicate b None) (replicate a [])) as (ts' & ns' & rs' & ms' & Hr' & _ & HF).
  - apply start_ok.
  - rewrite !replicate_length. assumption.
  - rewrite Hr in Hr'. injection Hr' as <- <- <-.
    apply elem_of_list_In, elem_of_list_lookup in Hin. destruct Hin as [i Hi].
    destruct (Forall2_lookup_l _ _ _ _ _ HF Hi) as (m & _ & [Hg _]). assumption.
Qed.
End MultiHistory.
