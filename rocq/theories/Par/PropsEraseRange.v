(** C86: erase(first, last) of the hash containers. *)
From stdpp Require Import list list_numbers.
From Coq Require Import Arith NArith ZArith Lia.
From Coq Require Import ZifyBool ZifyNat ZifyN.
From Verif.Common Require Import Res Word.
From Verif.Swiss Require Import Group GroupSpec GroupProof Model Probe ProbeProof Inv TableInv Resize Ops MapSpec History Multi MultiSpec MultiProof MultiHistory PropsTable PropsMulti.
From Verif.Par Require Import Seq SeqSpec SeqProof PropsSeq PropsHSeq PropsEqualRange.
Local Open Scope nat_scope.
Local Open Scope res_scope.

Section Model.
Context {K V : Type} (E : env).
Notation table := (table K V).
(* erase(first, last) (phmap.hpp 2272-2277): _erase(first++) (2255-2260) increments the iterator before the erasure; an iterator is
   the number of its slot *)
Fixpoint erase_range (fuel : nat) (t : table) (i j : nat) : res (table * nat) :=
  if i =? j then Ok (t, j)
  else match fuel with
  | O => Loop
  | S f =>
      let* i' := next_it E t i in
      let* (_, t') := erase_at E t i in
      erase_range f t' i' j
  end.
(* the iterator that n increments of begin() give *)
Fixpoint advance (n : nat) (t : table) (i : nat) : res nat :=
  match n with O => Ok i | S n' => let* i' := next_it E t i in advance n' t i' end.
Definition nth_it (n : nat) (t : table) : res nat := let* i := begin_it E t in advance n t i.
End Model.

Section Facts.
Context {K V : Type} (hash : K -> N) (eqb : K -> K -> bool) (E : env).
Context (HE : env_ok E) (HK : KeyOK hash eqb).
Notation table := (table K V).
Notation elt := (K * V)%type.
Lemma elems_at (sl : list (option elt)) j : elems sl = elems (take j sl) ++ elems (drop j sl).
Proof using. rewrite <- (take_drop j sl) at 1. unfold elems. apply omap_app. Qed.
Lemma elems_none n : elems (replicate n (@None elt)) = [].
Proof using. induction n as [|n IH]; [reflexivity|exact IH]. Qed.
Lemma elems_drop_len (sl : list (option elt)) j j' e : j' <= j -> sl !! j = Some (Some e) -> S (length (elems (drop (S j) sl))) <= length (elems (drop j' sl)).
Proof using.
  intros Hle Hj. replace j with (j' + (j - j')) in Hj by lia. rewrite <- lookup_drop in Hj. replace (S j) with (j' + S (j - j')) by lia. rewrite <- drop_drop.
  rewrite (elems_at (drop j' sl) (j - j')), app_length, (drop_S _ _ _ Hj). cbn. unfold elems. lia.
Qed.
Lemma at_slot_unique (t : table) i j : at_slot t i -> at_slot t j -> length (elems (drop i (t_slots t))) = length (elems (drop j (t_slots t))) -> i = j.
Proof using.
  assert (H : forall i j, at_slot t i -> at_slot t j -> length (elems (drop i (t_slots t))) = length (elems (drop j (t_slots t))) -> j <= i).
  { clear. intros i j [Hi [->|(e & He)]] [Hj _] Hl; [exact Hj|]. destruct (Nat.le_gt_cases j i) as [|Hlt]; [assumption|exfalso].
    pose proof (elems_drop_len (t_slots t) i i e ltac:(lia) He) as A. replace j with (S i + (j - S i)) in Hl by lia. rewrite <- drop_drop in Hl.
    pose proof (elems_at (drop (S i) (t_slots t)) (j - S i)) as B. apply (f_equal length) in B. rewrite app_length in B. lia. }
  intros Hi Hj Hl. apply Nat.le_antisymm; apply H; auto.
Qed.
Lemma next_before (t : table) i j i' : at_slot t j -> i < j -> i' <= t_cap t -> (forall x, i < x < i' -> t_slots t !! x = Some None) -> i' <= j.
Proof using.
  intros [Hj Hs] Hlt Hc Hn. destruct (Nat.le_gt_cases i' j) as [|H]; [assumption|exfalso]. destruct Hs as [->|(e & He)]; [lia|].
  rewrite (Hn j) in He by lia. discriminate.
Qed.
Lemma erase_range_ok fuel : forall (t : table) i j, good hash eqb E t -> at_slot t i -> at_slot t j -> i <= j -> j - i <= fuel ->
  exists t', erase_range E fuel t i j = Ok (t', j) /\ good hash eqb E t' /\ t_cap t' = t_cap t /\ length (t_slots t') = length (t_slots t) /\
    forall x, t_slots t' !! x = if (i <=? x) && (x <? j) then Some None else t_slots t !! x.
Proof using HE HK.
  induction fuel as [|f IH]; intros t i j Hg Hi Hj Hle Hf; cbn [erase_range]; destruct (Nat.eqb_spec i j) as [->|Hne]; try lia.
  - exists t. repeat (split; [reflexivity || assumption|]). intros x. destruct ((j <=? x) && (x <? j)) eqn:B; [lia|reflexivity].
  - exists t. repeat (split; [reflexivity || assumption|]). intros x. destruct ((j <=? x) && (x <? j)) eqn:B; [lia|reflexivity].
  - pose proof (proj1 Hj) as Hjc. destruct Hi as [Hic [?|(e & He)]]; [lia|]. destruct Hg as [->|Ht]; [discriminate|].
    destruct (next_ok hash eqb E HE HK t i Ht ltac:(lia)) as (i' & Hn & Hr & Hs & _ & Hgap).
    pose proof (next_before t i j i' Hj ltac:(lia) ltac:(lia) Hgap) as Hij.
    destruct (erase_at_ok hash eqb E (eo_group E HE) HK t i e Ht He) as (t1 & Her & Ht1 & Hsl & Hcap & _).
    rewrite Hn. cbn [rbind]. rewrite Her. cbn [rbind].
    assert (Hat : forall x, i < x -> at_slot t x -> at_slot t1 x).
    { intros x Hx [A B]. split; [lia|]. rewrite Hcap. destruct B as [B|(y & By)]; [left; exact B|right]. exists y. rewrite Hsl, list_lookup_insert_ne by lia. exact By. }
    destruct (IH t1 i' j) as (t' & R1 & R2 & R3 & R4 & R5); [right; exact Ht1|apply Hat; [lia|split; [lia|exact Hs]]|apply Hat; [lia|exact Hj]|exact Hij|lia|].
    exists t'. split; [exact R1|]. split; [exact R2|]. split; [congruence|]. split; [rewrite R4, Hsl, insert_length; reflexivity|].
    intros x. rewrite R5, Hsl. assert (Hil : i < length (t_slots t)) by (apply lookup_lt_Some in He; exact He).
    destruct (Nat.eq_dec x i) as [->|Hxi].
    + rewrite list_lookup_insert by exact Hil. destruct ((i <=? i) && (i <? j)) eqn:B; [|lia]. destruct ((i' <=? i) && (i <? j)); reflexivity.
    + rewrite list_lookup_insert_ne by lia. destruct ((i <=? x) && (x <? j)) eqn:B; destruct ((i' <=? x) && (x <? j)) eqn:B'; try reflexivity; try lia.
      apply Hgap. lia.
Qed.
(** the same seen as a traversal *)
Lemma erased_list (s s' : list (option elt)) i j : i <= j <= length s -> length s' = length s ->
  (forall x, s' !! x = if (i <=? x) && (x <? j) then Some None else s !! x) -> s' = take i s ++ replicate (j - i) None ++ drop j s.
Proof using.
  intros Hij Hl H. apply list_eq. intros x. rewrite H. destruct (Nat.lt_ge_cases x i).
  - destruct ((i <=? x) && (x <? j)) eqn:B; [lia|]. rewrite lookup_app_l by (rewrite take_length; lia). rewrite lookup_take by lia. reflexivity.
  - rewrite lookup_app_r by (rewrite take_length; lia). rewrite take_length, Nat.min_l by lia. destruct (Nat.lt_ge_cases x j).
    + destruct ((i <=? x) && (x <? j)) eqn:B; [|lia]. rewrite lookup_app_l by (rewrite replicate_length; lia). rewrite lookup_replicate_2 by lia. reflexivity.
    + destruct ((i <=? x) && (x <? j)) eqn:B; [lia|]. rewrite lookup_app_r by (rewrite replicate_length; lia). rewrite replicate_length, lookup_drop. f_equal. lia.
Qed.
(** iterators that begin() and increments give *)
Lemma advance_ok n : forall (t : table) i, good hash eqb E t -> at_slot t i -> n <= length (elems (drop i (t_slots t))) ->
  exists j, advance E n t i = Ok j /\ at_slot t j /\ i <= j /\ elems (drop j (t_slots t)) = drop n (elems (drop i (t_slots t))).
Proof using HE HK.
  induction n as [|n IH]; intros t i Hg Hat Hn; [exists i; repeat split; try apply Hat; lia|]. cbn [advance].
  destruct Hat as [Hic Hs]. destruct Hs as [Hc|(e & He)].
  { exfalso. destruct Hg as [->|Ht]; [cbn [t_slots empty_table] in Hn; rewrite drop_nil in Hn; cbn in Hn; lia|]. rewrite drop_ge in Hn; [cbn in Hn; lia|]. rewrite (ti_slen _ _ _ _ (tv_0 _ _ _ _ Ht)). lia. }
  destruct Hg as [->|Ht]; [discriminate|].
  assert (Hi : i < t_cap t) by (rewrite <- (ti_slen _ _ _ _ (tv_0 _ _ _ _ Ht)); apply lookup_lt_Some in He; exact He).
  destruct (next_ok hash eqb E HE HK t i Ht Hi) as (i' & Hx & Hr & Hs & Hd & _). rewrite Hx. cbn [rbind].
  assert (Hcons : elems (drop i (t_slots t)) = e :: elems (drop i' (t_slots t))) by (rewrite (drop_S _ _ _ He), <- Hd; reflexivity).
  rewrite Hcons in *. cbn [length] in Hn. destruct (IH t i' (or_intror Ht)) as (j & H1 & H2 & H3 & H4); [split; [lia|exact Hs]|lia|].
  exists j. split; [exact H1|]. split; [exact H2|]. split; [lia|exact H4].
Qed.
Lemma advance_app m n : forall (t : table) i j, advance E m t i = Ok j -> advance E (m + n) t i = advance E n t j.
Proof using.
  induction m as [|m IH]; intros t i j H; cbn [advance Nat.add] in *; [congruence|]. destruct (next_it E t i); cbn [rbind] in *; try discriminate. apply IH. exact H.
Qed.
End Facts.

(** In every table that a program can reach, with l the elements of a traversal and a <= b positions in it: erase(first, last) with the a-th
    and the b-th iterator ends, removes the elements from the a-th up to the b-th and no others, moves no other element (slots outside are the
    same), and returns last, which is the a-th iterator of what is left. *)
Theorem C86_erase_range : forall (K V : Type) (hash : K -> N) (eqb : K -> K -> bool) (E : env) (t : table K V) (l : list (K * V)) (a b : nat),
  real_env E -> KeyOK hash eqb -> reachable hash eqb E t -> to_list E t = Ok l -> a <= b <= length l ->
  exists i j t', nth_it E a t = Ok i /\ nth_it E b t = Ok j /\ erase_range E (t_cap t) t i j = Ok (t', j) /\
    to_list E t' = Ok (take a l ++ drop b l) /\ t_size t' + (b - a) = t_size t /\ t_cap t' = t_cap t /\
    (forall x e, t_slots t' !! x = Some (Some e) -> t_slots t !! x = Some (Some e)) /\ (a = b -> t' = t) /\
    nth_it E a t' = Ok j.
Proof.
  intros K V hash eqb E t l a b HR HK Hre Hl Hab. pose proof (real_env_ok E HR) as HE. pose proof (reachable_good hash eqb E HE HK t Hre) as Hg.
  assert (Htl : forall u : table K V, good hash eqb E u -> to_list E u = Ok (pe u)) by (intros u Hu; destruct (iterate_ok hash eqb E HE HK u Hu) as (is & _ & H & _); exact H).
  rewrite (Htl t Hg) in Hl. injection Hl as <-. destruct (good_begin hash eqb E HE HK t Hg) as (i0 & Hb & Hat0 & Hel0).
  destruct (advance_ok hash eqb E HE HK a t i0 Hg Hat0) as (i & Hi & Hati & Hii & Heli); [rewrite Hel0; lia|]. rewrite Hel0 in Heli.
  destruct (advance_ok hash eqb E HE HK (b - a) t i Hg Hati) as (j & Hj & Hatj & Hij & Helj); [rewrite Heli, drop_length; lia|].
  rewrite Heli, drop_drop in Helj. replace (a + (b - a)) with b in Helj by lia.
  pose proof (proj1 Hatj) as Hjc.
  destruct (erase_range_ok hash eqb E HE HK (t_cap t) t i j Hg Hati Hatj Hij ltac:(lia)) as (t' & R1 & R2 & R3 & R4 & R5).
  assert (Hjl : j <= length (t_slots t)) by (destruct Hg as [->|Ht]; [exact Hjc|rewrite (ti_slen _ _ _ _ (tv_0 _ _ _ _ Ht)); exact Hjc]).
  pose proof (erased_list (t_slots t) (t_slots t') i j ltac:(lia) R4 R5) as Hsl.
  assert (Hpe : pe t' = take a (pe t) ++ drop b (pe t)).
  { unfold pe at 1. rewrite Hsl. unfold elems. rewrite !omap_app. fold (elems (take i (t_slots t))) (elems (replicate (j - i) (@None (K * V)))) (elems (drop j (t_slots t))).
    rewrite elems_none, Helj. cbn [app]. f_equal. pose proof (elems_at (t_slots t) i) as Hsp. fold (pe t) in Hsp. rewrite Heli in Hsp.
    rewrite <- (take_drop a (pe t)) in Hsp at 1. apply app_inv_tail in Hsp. symmetry. exact Hsp. }
  exists i, j, t'. split; [unfold nth_it; rewrite Hb; exact Hi|].
  split; [unfold nth_it; rewrite Hb; cbn [rbind]; replace b with (a + (b - a)) by lia; rewrite (advance_app E a (b - a) t i0 i Hi); exact Hj|].
  split; [exact R1|]. split; [rewrite (Htl t' R2), Hpe; reflexivity|]. split.
  { rewrite (good_size hash eqb E t' R2), (good_size hash eqb E t Hg). fold (pe t') (pe t). rewrite Hpe, app_length, take_length, drop_length. unfold pe in *. lia. }
  split; [exact R3|]. split; [|split].
  - intros x e Hx. rewrite R5 in Hx. destruct ((i <=? x) && (x <? j)); [discriminate|exact Hx].
  - intros ->. rewrite Nat.sub_diag in Hj. cbn in Hj. injection Hj as <-. destruct (t_cap t); cbn [erase_range] in R1; rewrite Nat.eqb_refl in R1; congruence.
  - destruct (good_begin hash eqb E HE HK t' R2) as (k0 & Hk0 & Hatk & Helk).
    destruct (advance_ok hash eqb E HE HK a t' k0 R2 Hatk) as (k & Hk & Hatk' & _ & Helk'); [rewrite Helk, Hpe, app_length, take_length; lia|].
    unfold nth_it. rewrite Hk0. cbn [rbind]. rewrite Hk. f_equal. apply (at_slot_unique t' k j Hatk').
    + destruct Hatj as [A B]. split; [lia|]. rewrite R3. destruct B as [B|(y & By)]; [left; exact B|right]. exists y. rewrite R5. destruct ((i <=? j) && (j <? j)) eqn:X; [lia|exact By].
    + assert (Hd : drop j (t_slots t') = drop j (t_slots t)) by (apply list_eq; intros x; rewrite !lookup_drop, R5; destruct ((i <=? j + x) && (j + x <? j)) eqn:X; [lia|reflexivity]).
      rewrite Hd, Helj, Helk', Helk, Hpe, drop_app_ge by (rewrite take_length; lia). rewrite take_length, Nat.min_l by lia. rewrite Nat.sub_diag, drop_0. reflexivity.
Qed.
Print Assumptions C86_erase_range.

(** ten elements, of which those at positions 2 to 5 are erased; the table is the one that ten insertions and one erasure leave *)
Example C86_example : match run exp_hash N.eqb ex_env empty_table (ins (nums 0 10) ++ [OErase 3%N]) with
  | Ok (t, _) =>
      match nth_it ex_env 2 t, nth_it ex_env 6 t with
      | Ok i, Ok j => match erase_range ex_env (t_cap t) t i j with Ok (t', _) => Some (i, j, to_list ex_env t, to_list ex_env t', t_size t') | _ => None end
      | _, _ => None
      end
  | _ => None
  end = Some (2, 10, Ok [(0, 0); (8, 8); (1, 1); (9, 9); (2, 2); (4, 4); (5, 5); (6, 6); (7, 7)]%N, Ok [(0, 0); (8, 8); (5, 5); (6, 6); (7, 7)]%N, 5).
Proof. vm_compute. reflexivity. Qed.

(** ** Parallel containers *)
Section PModel.
Context {K V : Type} (E : env).
Notation ptable := (list (table K V)).
(* erase(first, last) (4090-4095): _erase(first++) (4074-4077) *)
Fixpoint p_erase_range (fuel : nat) (ps : ptable) (a b : pit) : res (ptable * pit) :=
  if pit_eqb a b then Ok (ps, b)
  else match fuel with
  | O => Loop
  | S f =>
      match a with
      | None => UB
      | Some x => let* a' := p_next E ps x in let* ps' := p_erase_at E ps x in p_erase_range f ps' a' b
      end
  end.
(* n increments of begin(); incrementing end() is undefined *)
Fixpoint p_advance (n : nat) (ps : ptable) (a : pit) : res pit :=
  match n with
  | O => Ok a
  | S n' => match a with None => UB | Some x => let* a' := p_next E ps x in p_advance n' ps a' end
  end.
Definition p_nth (n : nat) (ps : ptable) : res pit := let* a := p_begin E ps in p_advance n ps a.
End PModel.

Section PFacts.
Context {K V : Type} (hash : K -> N) (eqb : K -> K -> bool) (E : env) (lg : nat).
Context (HE : env_ok E) (HK : KeyOK hash eqb).
Notation ptable := (list (table K V)).
Notation elt := (K * V)%type.
(** an iterator and what a traversal from there visits *)
Definition itpos (ps : ptable) (a : pit) (post : list elt) : Prop :=
  match a with
  | None => post = []
  | Some (i, j) => exists t e, ps !! i = Some t /\ t_slots t !! j = Some (Some e) /\ post = e :: elems (drop (S j) (t_slots t)) ++ after ps i
  end.
Lemma pit_eqb_eq a b : pit_eqb a b = true <-> a = b.
Proof using.
  destruct a as [[i p]|], b as [[j r]|]; cbn; split; intros H; try discriminate; try reflexivity.
  - apply andb_true_iff in H as [H1 H2]. apply Nat.eqb_eq in H1, H2. congruence.
  - injection H as -> ->. rewrite !Nat.eqb_refl. reflexivity.
Qed.
Lemma itpos_fun ps a p1 p2 : itpos ps a p1 -> itpos ps a p2 -> p1 = p2.
Proof using. destruct a as [[i j]|]; cbn; [|congruence]. intros (t & e & H1 & H2 & ->) (t' & e' & H3 & H4 & ->). rewrite H1 in H3. injection H3 as <-. rewrite H2 in H4. injection H4 as <-. reflexivity. Qed.
Lemma after_len (ps : ptable) i i' t : i' < i -> ps !! i = Some t -> length (pe t) + length (after ps i) <= length (after ps i').
Proof using.
  intros Hlt Hi. unfold after. replace (S i) with (S i' + (S i - S i')) by lia. rewrite <- drop_drop.
  assert (Hd : drop (S i') ps !! (i - S i') = Some t) by (rewrite lookup_drop, <- Hi; f_equal; lia).
  remember (drop (S i') ps) as l. clear Heql. replace (S i - S i') with (S (i - S i')) by lia. revert Hd. generalize (i - S i') as n. clear. induction l as [|u l IH]; intros [|n] H; cbn in H; try discriminate.
  - injection H as ->. cbn. rewrite app_length. cbn. rewrite drop_0. lia.
  - specialize (IH n H). cbn. rewrite app_length. unfold pelems in IH. lia.
Qed.
(** an iterator with fewer elements to go is further on *)
Lemma itpos_later (ps : ptable) i j i' j' p1 p2 : itpos ps (Some (i, j)) p1 -> itpos ps (Some (i', j')) p2 -> length p2 < length p1 -> i < i' \/ (i = i' /\ j < j').
Proof using.
  intros (t & e & H1 & H2 & ->) (t' & e' & H3 & H4 & ->) Hl. cbn [length] in Hl. rewrite !app_length in Hl.
  destruct (Nat.lt_trichotomy i i') as [|[->|Hlt]]; [left; assumption| |].
  - right. split; [reflexivity|]. rewrite H1 in H3. injection H3 as <-. destruct (Nat.lt_ge_cases j j') as [|Hge]; [assumption|exfalso].
    destruct (Nat.eq_dec j j') as [->|]; [lia|]. pose proof (elems_drop_len (t_slots t) j (S j') e ltac:(lia) H2). lia.
  - exfalso. pose proof (after_len ps i i' t Hlt H1) as A. pose proof (elems_drop_len (t_slots t) j 0 e ltac:(lia) H2) as B. rewrite drop_0 in B. unfold pe in A. lia.
Qed.
Lemma itpos_unique ps a b p : itpos ps a p -> itpos ps b p -> a = b.
Proof using.
  destruct a as [[i j]|], b as [[i' j']|]; intros Ha Hb; [|cbn in *; destruct Ha as (? & ? & _ & _ & ->); discriminate|cbn in *; destruct Hb as (? & ? & _ & _ & ->); discriminate|reflexivity].
  destruct Ha as (t & e & H1 & H2 & Hp), Hb as (t' & e' & H3 & H4 & Hp'). assert (Hl : length (elems (drop (S j) (t_slots t)) ++ after ps i) = length (elems (drop (S j') (t_slots t')) ++ after ps i')) by (subst p; injection Hp' as _ Hp'; rewrite Hp'; reflexivity).
  rewrite !app_length in Hl.
  assert (Hgen : forall i i' j j' t t' e, ps !! i = Some t -> ps !! i' = Some t' -> t_slots t !! j = Some (Some e) ->
    length (elems (drop (S j) (t_slots t))) + length (after ps i) = length (elems (drop (S j') (t_slots t'))) + length (after ps i') -> i' < i \/ (i' = i /\ j' < j) -> False).
  { clear. intros i i' j j' t t' e H1 H3 H2 Hl [Hlt|[-> Hlt]].
    - pose proof (after_len ps i i' t Hlt H1) as A. pose proof (elems_drop_len (t_slots t) j 0 e ltac:(lia) H2) as B. rewrite drop_0 in B. unfold pe in A. lia.
    - rewrite H1 in H3. injection H3 as <-. pose proof (elems_drop_len (t_slots t) j (S j') e ltac:(lia) H2). lia. }
  destruct (Nat.lt_trichotomy i i') as [Hlt|[->|Hlt]].
  - exfalso. apply (Hgen i' i j' j t' t e'); auto.
  - destruct (Nat.lt_trichotomy j j') as [Hlt|[->|Hlt]]; [|reflexivity|]; exfalso; [apply (Hgen i' i' j' j t' t e'); auto|apply (Hgen i' i' j j' t t' e); auto].
  - exfalso. apply (Hgen i i' j j' t t' e); auto.
Qed.
Lemma skip_itpos (ps : ptable) i j t : Forall (good hash eqb E) ps -> ps !! i = Some t -> at_slot t j ->
  exists a, p_skip E (length ps) ps i j = Ok a /\ itpos ps a (elems (drop j (t_slots t)) ++ after ps i).
Proof using HE HK.
  intros Hps Hi Hat. destruct (p_skip_ok hash eqb E HE HK (length ps) ps i j t Hps Hi Hat ltac:(lia)) as [[H1 H2]|(i' & j' & t' & e & H1 & H2 & H3 & H4 & H5 & _)].
  - exists None. split; [exact H1|exact H2].
  - exists (Some (i', j')). split; [exact H1|]. exists t', e. split; [exact H2|]. split; [exact H3|]. rewrite H5, (drop_S _ _ _ H3). reflexivity.
Qed.
Lemma next_itpos (ps : ptable) x e post : Forall (good hash eqb E) ps -> itpos ps (Some x) (e :: post) -> exists a, p_next E ps x = Ok a /\ itpos ps a post.
Proof using HE HK.
  destruct x as [i j]. intros Hps (t & e0 & Hi & Hj & Hp). injection Hp as <- ->. unfold p_next. rewrite (load_some _ _ _ Hi). cbn [rbind].
  destruct (Forall_lookup_1 _ _ _ _ Hps Hi) as [->|Ht]; [discriminate|].
  assert (Hc : j < t_cap t) by (rewrite <- (ti_slen _ _ _ _ (tv_0 _ _ _ _ Ht)); apply lookup_lt_Some in Hj; exact Hj).
  destruct (next_ok hash eqb E HE HK t j Ht Hc) as (j' & Hn & Hr & Hs & Hd & _). rewrite Hn. cbn [rbind]. rewrite Hd. apply skip_itpos; [exact Hps|exact Hi|split; [lia|exact Hs]].
Qed.
Lemma pelems_at (ps : ptable) i t : ps !! i = Some t -> pelems ps = pelems (take i ps) ++ pe t ++ after ps i.
Proof using.
  intros Hi. rewrite <- (take_drop_middle ps i t Hi) at 1. unfold pelems at 1. rewrite flat_map_app. reflexivity.
Qed.
Lemma erase_step (ps : ptable) x e post pre : pgood hash eqb E lg ps -> itpos ps (Some x) (e :: post) -> pelems ps = pre ++ e :: post ->
  exists ps', p_erase_at E ps x = Ok ps' /\ pgood hash eqb E lg ps' /\ pelems ps' = pre ++ post /\
    (forall b pb, itpos ps b pb -> length pb <= length post -> itpos ps' b pb).
Proof using HE HK.
  destruct x as [i j]. intros Hg Hx Hel. pose proof Hx as (t & e0 & Hi & Hj & Hp). injection Hp as <- ->.
  destruct (Forall_lookup_1 _ _ _ _ (pg_good _ _ _ _ _ Hg) Hi) as [->|Ht]; [discriminate|].
  destruct (erase_at_ok hash eqb E (eo_group E HE) HK t j e Ht Hj) as (t1 & Her & Ht1 & Hsl & Hcap & _ & Hperm).
  pose proof (lookup_lt_Some _ _ _ Hi) as Hil. pose proof (lookup_lt_Some _ _ _ Hj) as Hjl.
  exists (<[i := t1]> ps). unfold p_erase_at. cbn [fst snd]. rewrite (load_some _ _ _ Hi). cbn [rbind]. rewrite Her. cbn [rbind]. split; [reflexivity|].
  assert (Haft : forall k, i <= k -> after (<[i := t1]> ps) k = after ps k) by (intros k Hk; unfold after; rewrite drop_insert_gt by lia; reflexivity).
  assert (Hdrop : forall k, j < k -> drop k (t_slots t1) = drop k (t_slots t)) by (intros k Hk; rewrite Hsl; apply drop_insert_gt; lia).
  split; [|split].
  - eapply pgood_insert; [exact Hg|exact Hi|right; exact Ht1|]. intros y Hy. apply (pg_routed _ _ _ _ _ Hg _ _ _ Hi). unfold pe in *. rewrite Hperm. right. exact Hy.
  - rewrite (pelems_at (<[i := t1]> ps) i t1) by (apply list_lookup_insert; exact Hil). rewrite take_insert, Haft by lia.
    rewrite (pelems_at ps i t Hi) in Hel. unfold pe in *. rewrite (elems_at (t_slots t) j), (drop_S _ _ _ Hj) in Hel. change (elems (Some e :: drop (S j) (t_slots t))) with (e :: elems (drop (S j) (t_slots t))) in Hel.
    assert (Hpre : pre = pelems (take i ps) ++ elems (take j (t_slots t))).
    { apply (app_inv_tail (e :: elems (drop (S j) (t_slots t)) ++ after ps i)). rewrite <- Hel, <- !app_assoc. reflexivity. }
    assert (Hj1 : t_slots t1 !! j = Some None) by (rewrite Hsl; apply list_lookup_insert; exact Hjl).
    rewrite (elems_at (t_slots t1) j), (drop_S _ _ _ Hj1). change (elems (None :: drop (S j) (t_slots t1))) with (elems (drop (S j) (t_slots t1))).
    rewrite Hdrop by lia. rewrite Hsl, take_insert by lia. rewrite Hpre, <- !app_assoc. reflexivity.
  - intros [[i' j']|] pb Hb Hlen; [|exact Hb]. destruct (itpos_later ps i j i' j' _ _ Hx Hb) as [Hlt|[<- Hlt]]; [cbn [length]; lia| |];
      destruct Hb as (t' & e' & H3 & H4 & ->).
    + exists t', e'. rewrite list_lookup_insert_ne by lia. rewrite Haft by lia. auto.
    + rewrite Hi in H3. injection H3 as <-. exists t1, e'. rewrite list_lookup_insert by exact Hil. split; [reflexivity|]. rewrite Hdrop, Haft by lia.
      split; [|reflexivity]. rewrite Hsl, list_lookup_insert_ne by lia. exact H4.
Qed.
Lemma p_erase_range_ok mid : forall fuel (ps : ptable) a b pre post, pgood hash eqb E lg ps -> itpos ps a (mid ++ post) -> itpos ps b post ->
  pelems ps = pre ++ mid ++ post -> length mid <= fuel ->
  exists ps', p_erase_range E fuel ps a b = Ok (ps', b) /\ pgood hash eqb E lg ps' /\ pelems ps' = pre ++ post /\ itpos ps' b post.
Proof using HE HK.
  induction mid as [|e mid IH]; intros fuel ps a b pre post Hg Ha Hb Hel Hf.
  - cbn [app] in Ha. pose proof (itpos_unique ps a b post Ha Hb) as ->. exists ps. destruct fuel; cbn [p_erase_range]; rewrite (proj2 (pit_eqb_eq b b) eq_refl); auto.
  - cbn [app] in Ha. destruct fuel as [|f]; cbn [length] in Hf; [lia|]. cbn [p_erase_range].
    destruct (pit_eqb a b) eqn:Heq.
    { apply pit_eqb_eq in Heq as ->. pose proof (itpos_fun ps b _ _ Ha Hb) as H. apply (f_equal length) in H. cbn [length] in H. rewrite app_length in H. lia. }
    destruct a as [x|]; [|discriminate Ha]. destruct (next_itpos ps x e (mid ++ post) (pg_good _ _ _ _ _ Hg) Ha) as (a' & Hn & Ha').
    destruct (erase_step ps x e (mid ++ post) pre Hg Ha Hel) as (ps1 & Her & Hg1 & Hel1 & Hkeep). rewrite Hn. cbn [rbind]. rewrite Her. cbn [rbind].
    apply (IH f ps1 a' b pre post Hg1); [apply Hkeep; [exact Ha'|lia]|apply Hkeep; [exact Hb|rewrite app_length; lia]|exact Hel1|lia].
Qed.
Lemma p_advance_ok n : forall (ps : ptable) a l, Forall (good hash eqb E) ps -> itpos ps a l -> n <= length l -> exists b, p_advance E n ps a = Ok b /\ itpos ps b (drop n l).
Proof using HE HK.
  induction n as [|n IH]; intros ps a l Hps Ha Hn; [exists a; split; [reflexivity|exact Ha]|]. destruct l as [|e l]; cbn [length] in Hn; [lia|].
  destruct a as [x|]; [|discriminate Ha]. destruct (next_itpos ps x e l Hps Ha) as (a' & Hx & Ha'). cbn [p_advance]. rewrite Hx. cbn [rbind]. apply IH; [exact Hps|exact Ha'|lia].
Qed.
Lemma p_begin_itpos (ps : ptable) : pgood hash eqb E lg ps -> exists a, p_begin E ps = Ok a /\ itpos ps a (pelems ps).
Proof using HE HK.
  intros Hg. pose proof (pg_good _ _ _ _ _ Hg) as Hps. destruct (lookup_lt_is_Some_2 ps 0) as [t Ht]; [rewrite (pg_len _ _ _ _ _ Hg); apply num_pos|].
  destruct (good_begin hash eqb E HE HK t (Forall_lookup_1 _ _ _ _ Hps Ht)) as (j0 & Hj0 & Hat & Hel0).
  destruct (skip_itpos ps 0 j0 t Hps Ht Hat) as (a0 & Ha0 & Hp0). exists a0.
  split; [unfold p_begin; rewrite (load_some _ _ _ Ht); cbn [rbind]; rewrite Hj0; exact Ha0|]. rewrite (pelems_at ps 0 t Ht). rewrite Hel0 in Hp0. exact Hp0.
Qed.
End PFacts.

(** The same in every parallel container that a program of C13 can leave; the range may span submaps. *)
Theorem C86_parallel : forall (K V : Type) (hash : K -> N) (eqb : K -> K -> bool) (eeq : K * V -> K * V -> bool)
    (E : env) (lg n1 n2 : nat) (os : list (mop K V)) cs ns rs (c : nat) (ps : list (table K V)) (l : list (K * V)) (a b : nat),
  real_env E -> KeyOK hash eqb -> EltOK eqb eeq -> lg <= 12 -> Forall (pmop_ok E lg n1 n2) os ->
  pm_run hash eqb eeq E lg (replicate n1 (p_empty lg)) (replicate n2 None) os = Ok (cs, ns, rs) -> cs !! c = Some ps ->
  p_to_list E ps = Ok l -> a <= b <= length l ->
  exists i j ps', p_nth E a ps = Ok i /\ p_nth E b ps = Ok j /\ p_erase_range E (b - a) ps i j = Ok (ps', j) /\
    p_to_list E ps' = Ok (take a l ++ drop b l) /\ p_size ps' + (b - a) = p_size ps /\ p_nth E a ps' = Ok j.
Proof.
  intros K V hash eqb eeq E lg n1 n2 os cs ns rs c ps l a b HE0 HK HQ Hlg Ho Hrun Hi Hl Hab. pose proof (real_env_ok E HE0) as HE.
  destruct (pm_run_ok hash eqb E lg HE HK Hlg eeq HQ os (replicate n1 (p_empty lg)) (replicate n2 None) (replicate n1 []))
    as (cs2 & ns2 & rs2 & ms & H1 & _ & HF); [apply pm_start|rewrite !replicate_length; assumption|].
  rewrite Hrun in H1. injection H1 as <- <- <-. destruct (Forall2_lookup_l _ _ _ _ _ HF Hi) as (m & _ & [Hg _]).
  assert (Htl : forall qs : list (table K V), pgood hash eqb E lg qs -> p_to_list E qs = Ok (pelems qs)).
  { intros qs Hqs. apply (p_to_list_ok hash eqb E HE HK); [apply (pg_good _ _ _ _ _ Hqs)|]. rewrite (pg_len _ _ _ _ _ Hqs). apply num_pos. }
  rewrite (Htl ps Hg) in Hl. injection Hl as <-. pose proof (pg_good _ _ _ _ _ Hg) as Hps.
  destruct (p_begin_itpos hash eqb E lg HE HK ps Hg) as (a0 & Hbeg & Hp0).
  destruct (p_advance_ok hash eqb E HE HK a ps a0 _ Hps Hp0 ltac:(lia)) as (i & Hai & Hpi).
  destruct (p_advance_ok hash eqb E HE HK b ps a0 _ Hps Hp0 ltac:(lia)) as (j & Haj & Hpj).
  assert (Hmid : drop a (pelems ps) = take (b - a) (drop a (pelems ps)) ++ drop b (pelems ps)).
  { rewrite <- (take_drop (b - a) (drop a (pelems ps))) at 1. rewrite drop_drop. f_equal. f_equal. lia. }
  destruct (p_erase_range_ok hash eqb E lg HE HK (take (b - a) (drop a (pelems ps))) (b - a) ps i j (take a (pelems ps)) (drop b (pelems ps)) Hg) as (ps' & R1 & R2 & R3 & R4).
  - rewrite <- Hmid. exact Hpi.
  - exact Hpj.
  - rewrite <- Hmid, take_drop. reflexivity.
  - rewrite take_length. lia.
  - exists i, j, ps'. unfold p_nth. rewrite Hbeg. cbn [rbind]. split; [exact Hai|]. split; [exact Haj|]. split; [exact R1|]. split; [rewrite (Htl ps' R2), R3; reflexivity|].
    split; [rewrite (p_size_ok hash eqb E ps' (pg_good _ _ _ _ _ R2)), (p_size_ok hash eqb E ps Hps), R3, app_length, take_length, drop_length; lia|].
    destruct (p_begin_itpos hash eqb E lg HE HK ps' R2) as (b0 & Hb0 & Hpb).
    destruct (p_advance_ok hash eqb E HE HK a ps' b0 _ (pg_good _ _ _ _ _ R2) Hpb) as (k & Hk & Hpk); [rewrite R3, app_length, take_length; lia|].
    rewrite Hb0. cbn [rbind]. rewrite Hk. f_equal. apply (itpos_unique ps' k j (drop b (pelems ps))); [|exact R4].
    rewrite R3, drop_app_ge in Hpk by (rewrite take_length; lia). rewrite take_length, Nat.min_l in Hpk by lia. rewrite Nat.sub_diag, drop_0 in Hpk. exact Hpk.
Qed.
Print Assumptions C86_parallel.

(** ten elements in four submaps; the erased range ends two submaps further on *)
Example C86_parallel_example : Forall (pmop_ok ex_env 2 1 0) (map (MOne 0) (ins (nums 0 10))) /\
  match pm_run exp_hash N.eqb ex_eeq ex_env 2 [p_empty 2] [] (map (MOne 0) (ins (nums 0 10))) with
  | Ok ([ps], _, _) =>
      match p_nth ex_env 2 ps, p_nth ex_env 7 ps with
      | Ok i, Ok j => match p_erase_range ex_env 5 ps i j with Ok (ps', _) => Some (i, j, p_to_list ex_env ps, p_to_list ex_env ps') | _ => None end
      | _, _ => None
      end
  | _ => None
  end = Some (Some (0, 2), Some (2, 1),
    Ok [(0%N, 0%N); (4%N, 4%N); (8%N, 8%N); (5%N, 5%N); (9%N, 9%N); (1%N, 1%N); (2%N, 2%N); (6%N, 6%N); (7%N, 7%N); (3%N, 3%N)],
    Ok [(0%N, 0%N); (4%N, 4%N); (6%N, 6%N); (7%N, 7%N); (3%N, 3%N)]).
Proof.
  split; [|vm_compute; reflexivity].
  apply Forall_forall. intros o Ho. apply elem_of_list_fmap in Ho. destruct Ho as (x & -> & Hx).
  apply elem_of_list_fmap in Hx. destruct Hx as (k & -> & _). cbn. split; [lia|exact I].
Qed.
