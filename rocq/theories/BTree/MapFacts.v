(** btree_map is a finite map from keys (up to equivalence) to mapped values. *)
From stdpp Require Import list.
From Coq Require Import Arith Lia ZifyBool ZifyNat Sorting.Sorted.
From Verif.Common Require Import Res.
From Verif.BTree Require Import Tree TreeFacts Balance Search Spec SearchFacts Ops Iter OpsFacts SpecFacts Refine Refine2 Api ApiSpec ApiFacts.
Local Open Scope nat_scope.
Local Open Scope res_scope.

Section MapFacts.
Context {K M : Type} (lt : K -> K -> bool) (kN : nat) (m : mode) (dflt : M).
Context (Hlt : swo lt) (HkN : 3 <= kN) (Hmu : multi m = false).
Notation V := (K * M)%type.
Implicit Types (b : btree V) (v : V) (k : K) (l : list V) (x : M).
Notation srt := (sorted fst lt (multi m)).
Notation repr := (repr fst lt kN m).
Notation lower := (lower fst lt). Notation upper := (upper fst lt). Notation has := (has fst lt).
Notation set_insert := (set_insert fst lt).
Notation mcall := (mcall lt kN m dflt). Notation mrun := (mrun lt kN m dflt).

Lemma equiv_refl k : equiv lt k k = true.
Proof. unfold equiv. by rewrite (swo_irrefl lt Hlt). Qed.
Lemma equiv_sym k k' : equiv lt k k' = equiv lt k' k.
Proof. unfold equiv. apply andb_comm. Qed.
Lemma lt_cong a k k' : equiv lt k' k = true -> lt a k' = lt a k /\ lt k' a = lt k a.
Proof.
  unfold equiv. intros He. assert (H1 : lt k' k = false) by (by destruct (lt k' k)). assert (H2 : lt k k' = false) by (by destruct (lt k k'), (lt k' k)). split.
  - apply eq_true_iff_eq. split; intros H.
    + destruct (swo_neg lt Hlt _ _ k H) as [|]; [done|]. congruence.
    + destruct (swo_neg lt Hlt _ _ k' H) as [|]; [done|]. congruence.
  - apply eq_true_iff_eq. split; intros H.
    + destruct (swo_neg lt Hlt _ _ k H) as [|]; [|done]. congruence.
    + destruct (swo_neg lt Hlt _ _ k' H) as [|]; [|done]. congruence.
Qed.
Lemma equiv_cong a k k' : equiv lt k' k = true -> equiv lt a k' = equiv lt a k.
Proof. intros He. destruct (lt_cong a k k' He) as [H1 H2]. unfold equiv. by rewrite H1, H2. Qed.

Definition mval l k : option M := option_map snd (List.find (fun v => equiv lt (fst v) k) l).
Lemma mval_cong l k k' : equiv lt k' k = true -> mval l k' = mval l k.
Proof. intros He. unfold mval. f_equal. induction l as [|a l IH]; cbn; [done|]. rewrite (equiv_cong _ k k') by done. by destruct (equiv lt a.1 k). Qed.
Lemma find_app_none (p : V -> bool) A B : Forall (fun v => p v = false) A -> List.find p (A ++ B) = List.find p B.
Proof. induction 1 as [|a A Ha HA IH]; cbn; [done|]. by rewrite Ha. Qed.
Lemma find_app (p : V -> bool) A B : List.find p (A ++ B) = match List.find p A with Some v => Some v | None => List.find p B end.
Proof. induction A as [|a A IH]; cbn; [done|]. by destruct (p a). Qed.
Lemma mval_none l k : has k l = false -> mval l k = None.
Proof.
  intros Hh. unfold mval. destruct (List.find _ l) as [v|] eqn:E; [|done]. apply List.find_some in E as [Hin He]. exfalso.
  assert (has k l = true); [|congruence]. unfold Spec.has. apply List.existsb_exists. eauto.
Qed.
Lemma not_equiv_ne i j l k v w : srt l -> l !! i = Some v -> equiv lt (fst v) k = true -> l !! j = Some w -> j <> i -> equiv lt (fst w) k = false.
Proof.
  intros Hs Hv He Hw Hn. rewrite (equiv_lookup fst lt kN m Hlt HkN k l i v Hs Hv) in He. rewrite (equiv_lookup fst lt kN m Hlt HkN k l j w Hs Hw).
  pose proof (unique_upper fst lt (multi m) Hlt k l Hmu Hs). lia.
Qed.
Lemma mval_some l k i v : srt l -> l !! i = Some v -> equiv lt (fst v) k = true -> mval l k = Some (snd v).
Proof.
  intros Hs Hv He. unfold mval. rewrite <- (take_drop i l). rewrite find_app_none.
  - rewrite (drop_S l v i Hv). cbn. by rewrite He.
  - apply Forall_lookup. intros j w Hw. rewrite lookup_take_Some in Hw. destruct Hw as [Hw Hj]. eapply (not_equiv_ne i j); eauto. lia.
Qed.
Lemma mval_has l k : srt l -> has k l = match mval l k with Some _ => true | None => false end.
Proof.
  intros Hs. destruct (has k l) eqn:E; [|by rewrite mval_none]. unfold Spec.has in E. apply List.existsb_exists in E as (v & Hin & He).
  apply elem_of_list_In, elem_of_list_lookup in Hin as [j Hj]. by rewrite (mval_some l k j v).
Qed.
Lemma mval_set l k x k' : srt l -> has k l = false -> mval (set_insert (k, x) l) k' = if equiv lt k' k then Some x else mval l k'.
Proof.
  intros Hs Hh. unfold Refine.set_insert. cbn [fst]. rewrite Hh. unfold insert_at, mval.
  destruct (equiv lt k' k) eqn:E.
  - rewrite find_app_none; [cbn; by rewrite equiv_sym, E|]. apply Forall_lookup. intros j w Hw. rewrite lookup_take_Some in Hw. destruct Hw as [Hw Hj].
    rewrite (equiv_cong _ k k') by done. rewrite (equiv_lookup fst lt kN m Hlt HkN k l j w Hs Hw). lia.
  - rewrite find_app. cbn [List.find fst]. rewrite equiv_sym, E. rewrite <- find_app. by rewrite take_drop.
Qed.
Lemma mval_remove l k k' : mval (List.filter (fun v => negb (equiv lt (fst v) k)) l) k' = if equiv lt k' k then None else mval l k'.
Proof.
  unfold mval. destruct (equiv lt k' k) eqn:E.
  - destruct (List.find _ _) as [v|] eqn:F; [|done]. exfalso. apply List.find_some in F as [Hin He]. apply List.filter_In in Hin as [_ Hn].
    rewrite (equiv_cong _ k k') in He by done. by rewrite He in Hn.
  - f_equal. induction l as [|a l IH]; cbn; [done|]. destruct (equiv lt a.1 k) eqn:E1; cbn.
    + rewrite IH. destruct (equiv lt a.1 k') eqn:E2; [|done]. exfalso.
      rewrite (equiv_sym a.1) in E2. rewrite equiv_sym, (equiv_cong k a.1 k'), equiv_sym in E by done. congruence.
    + by rewrite IH.
Qed.
Lemma mval_assign l i w k k' x : srt l -> l !! i = Some w -> equiv lt (fst w) k = true -> mval (<[i := (fst w, x)]> l) k' = if equiv lt k' k then Some x else mval l k'.
Proof.
  intros Hs Hw He. pose proof (lookup_lt_Some _ _ _ Hw) as Hi. unfold mval. rewrite (insert_take_drop l i _ Hi).
  destruct (equiv lt k' k) eqn:E.
  - rewrite find_app_none.
    + cbn. rewrite (equiv_cong _ k k') by done. by rewrite He.
    + apply Forall_lookup. intros j y Hy. rewrite lookup_take_Some in Hy. destruct Hy as [Hy Hj]. rewrite (equiv_cong _ k k') by done. eapply (not_equiv_ne i j); eauto. lia.
  - rewrite find_app. cbn [List.find fst]. assert (equiv lt (fst w) k' = false) as Hf.
    { rewrite equiv_sym. rewrite <- E. by apply equiv_cong. }
    rewrite Hf. f_equal. transitivity (List.find (fun v => equiv lt v.1 k') (take i l ++ drop i l)); [|by rewrite take_drop].
    rewrite (drop_S l w i Hw), find_app. cbn. by rewrite Hf.
Qed.

Definition agrees (f : K -> option M) l : Prop := forall k, f k = mval l k.
Lemma hit_unique b l k c : hit fst lt m b l k c -> exists v, it (b_root b) (lower k l) c /\ l !! lower k l = Some v /\ equiv lt (fst v) k = true.
Proof. intros (i & v & Hc & Hv & He & Hi). rewrite Hmu, andb_false_r in Hi. specialize (Hi eq_refl). subst i. eauto. Qed.
Lemma lookup_inserted k x l : has k l = false -> set_insert (k, x) l !! lower k l = Some (k, x).
Proof.
  intros Hh. unfold Refine.set_insert. cbn [fst]. rewrite Hh. unfold insert_at. pose proof (lower_le fst lt k l).
  rewrite lookup_app_r; rewrite take_length; [|lia]. replace (lower k l - lower k l `min` length l) with 0 by lia. done.
Qed.
Lemma lookup_present k l : srt l -> has k l = true -> exists w, l !! lower k l = Some w /\ equiv lt (fst w) k = true.
Proof.
  intros Hs Hh. rewrite (has_spec fst lt (multi m) Hlt k l Hs) in Hh. pose proof (upper_le fst lt k l). destruct (lookup_lt_is_Some_2 l (lower k l)) as [w Hw]; [lia|].
  exists w. split; [done|]. rewrite (equiv_lookup fst lt kN m Hlt HkN k l _ w Hs Hw). lia.
Qed.
(* after operator[] the key is there *)
Lemma subscript_spec b l k : repr b l -> exists b' c w l', subscript lt kN m dflt b k = Ok (b', c) /\ repr b' l' /\ it (b_root b') (lower k l) c /\
  l' !! lower k l = Some w /\ value c = Ok w /\ equiv lt (fst w) k = true /\
  (forall k', mval l' k' = match mval l k with Some _ => mval l k' | None => if equiv lt k' k then Some dflt else mval l k' end) /\
  mval l' k = Some (snd w).
Proof.
  intros Hb. pose proof (repr_sorted fst lt kN m b l Hb) as Hs. unfold subscript.
  destruct (insert_unique_spec fst lt kN m Hlt HkN b l (k, dflt) Hmu Hb) as (b' & c & -> & Hb' & Hc & _). cbn [rbind fst] in *.
  pose proof (repr_sorted fst lt kN m b' _ Hb') as Hs'. pose proof (mval_has l k Hs) as Hh. destruct (mval l k) as [y|] eqn:Ey.
  - destruct (lookup_present k l Hs Hh) as (w & Hw & He). assert (Hsi : set_insert (k, dflt) l = l). { unfold Refine.set_insert. cbn [fst]. by rewrite Hh. }
    rewrite Hsi in *. destruct (value_it fst lt kN m b' l (lower k l) c Hb' Hc) as (w' & Hw' & Hv); [by eapply lookup_lt_Some|]. assert (w' = w) as -> by congruence.
    exists b', c, w, l. split_and!; auto. by eapply mval_some.
  - exists b', c, (k, dflt), (set_insert (k, dflt) l). pose proof (lookup_inserted k dflt l Hh) as Hw.
    destruct (value_it fst lt kN m b' _ (lower k l) c Hb' Hc) as (w' & Hw' & Hv); [by eapply lookup_lt_Some|]. assert (w' = (k, dflt)) as -> by congruence.
    split_and!; auto; [apply equiv_refl|intros k'; by rewrite mval_set|]. rewrite mval_set, equiv_refl; done.
Qed.
Lemma mcall_spec b l f (o : mop K M) : repr b l -> agrees f l -> exists b' l', mcall b o = Ok (b', snd (mstep lt dflt f o)) /\ repr b' l' /\ agrees (fst (mstep lt dflt f o)) l'.
Proof.
  intros Hb Hf. pose proof (repr_sorted fst lt kN m b l Hb) as Hs. destruct o as [k x|k x|k|k|k|k|]; cbn [Api.mcall mstep].
  - destruct (insert_unique_spec fst lt kN m Hlt HkN b l (k, x) Hmu Hb) as (b' & c & -> & Hb' & Hc & _). cbn [rbind fst] in *. exists b', (set_insert (k, x) l).
    rewrite (Hf k). rewrite (mval_has l k Hs). destruct (mval l k) as [y|] eqn:E; cbn [negb fst snd].
    + split; [done|]. split; [done|]. unfold Refine.set_insert. cbn [fst]. by rewrite (mval_has l k Hs), E.
    + split; [done|]. split; [done|]. intros k'. rewrite mval_set; [|done|by rewrite (mval_has l k Hs), E]. unfold upd. by rewrite Hf.
  - destruct (subscript_spec b l k Hb) as (b' & c & w & l' & -> & Hb' & Hc & Hw & Hv & He & Hm & _). cbn [rbind]. rewrite Hv. cbn [rbind].
    destruct (assign_spec fst lt kN m HkN b' l' _ c (fst w, x) w Hb' Hc Hw eq_refl) as (b'' & c'' & -> & Hb'' & _). cbn [rbind].
    exists b'', (<[lower k l := (fst w, x)]> l'). split; [done|]. split; [done|]. cbn [fst]. intros k'. rewrite (mval_assign l' _ w k); auto; [|by eapply repr_sorted].
    unfold upd. destruct (equiv lt k' k) eqn:E; [done|]. rewrite Hm, Hf, E. by destruct (mval l k).
  - destruct (subscript_spec b l k Hb) as (b' & c & w & l' & -> & Hb' & Hc & Hw & Hv & He & Hm & Hmk). cbn [rbind]. rewrite Hv. cbn [rbind].
    exists b', l'. rewrite (Hf k). destruct (mval l k) as [y|] eqn:E; cbn [fst snd].
    + split; [|split; [done|intros k'; by rewrite Hm]]. rewrite Hm in Hmk. do 3 f_equal. congruence.
    + split; [|split; [done|intros k'; rewrite Hm; unfold upd; by rewrite Hf]]. rewrite Hm, equiv_refl in Hmk. do 3 f_equal. congruence.
  - destruct (find_spec fst lt kN m Hlt HkN b l k Hb) as (c & -> & Hc). cbn [rbind]. destruct (end_it fst lt kN m b l Hb) as (e & -> & He). cbn [rbind].
    exists b, l. rewrite (Hf k). cbn [fst snd]. pose proof (mval_has l k Hs) as Hh. destruct (has k l).
    + apply hit_unique in Hc as (v & Hc & Hv & Heq). rewrite (same_r fst lt kN m b l _ (length l) c e Hb Hc He). pose proof (lookup_lt_Some _ _ _ Hv).
      replace (lower k l =? length l) with false by lia. destruct (value_it fst lt kN m b l _ c Hb Hc) as (w & Hw & ->); [done|]. cbn [rbind].
      rewrite (mval_some l k _ v) by done. split; [|done]. do 3 f_equal. congruence.
    + rewrite (same_r fst lt kN m b l _ (length l) c e Hb Hc He), Nat.eqb_refl. by destruct (mval l k).
  - destruct (erase_unique_spec fst lt kN m Hlt HkN b l k Hmu Hb) as (b' & -> & Hb'). cbn [rbind]. cbn [fst snd]. eexists b', _. split; [|split; [exact Hb'|]].
    + rewrite (mval_has l k Hs), (Hf k). by destruct (mval l k).
    + rewrite (one_if_has fst lt kN m Hlt HkN) by done. rewrite (remove_equiv fst lt kN m Hlt HkN) by done. intros k'. rewrite mval_remove. unfold upd. by rewrite Hf.
  - destruct (find_spec fst lt kN m Hlt HkN b l k Hb) as (c & -> & Hc). cbn [rbind]. destruct (end_it fst lt kN m b l Hb) as (e & -> & He). cbn [rbind].
    exists b, l. rewrite (Hf k). cbn [fst snd]. pose proof (mval_has l k Hs) as Hh. destruct (has k l).
    + apply hit_unique in Hc as (v & Hc & Hv & Heq). rewrite (same_r fst lt kN m b l _ (length l) c e Hb Hc He). pose proof (lookup_lt_Some _ _ _ Hv).
      replace (lower k l =? length l) with false by lia. by destruct (mval l k).
    + rewrite (same_r fst lt kN m b l _ (length l) c e Hb Hc He), Nat.eqb_refl. by destruct (mval l k).
  - exists new_btree, []. split; [done|]. split; [apply (repr_new fst lt kN m HkN)|]. done.
Qed.
Theorem mrun_spec b l f ops : repr b l -> agrees f l -> exists b' l', mrun b ops = Ok (b', msteps lt dflt f ops) /\ repr b' l'.
Proof.
  revert b l f. induction ops as [|o ops IH]; intros b l f Hb Hf; cbn [Api.mrun msteps]; [eauto|].
  destruct (mcall_spec b l f o Hb Hf) as (b1 & l1 & -> & Hb1 & Hf1). cbn [rbind]. destruct (mstep lt dflt f o) as [f1 r]. cbn [fst snd] in *.
  destruct (IH b1 l1 f1 Hb1 Hf1) as (b' & l' & -> & Hb'). cbn [rbind]. eauto.
Qed.
End MapFacts.
