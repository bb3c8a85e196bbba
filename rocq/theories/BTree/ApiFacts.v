(** The calls of a client, and whole clients, do what ApiSpec.v says. *)
From stdpp Require Import list.
From Coq Require Import Arith Lia ZifyBool ZifyNat Sorting.Sorted.
From Verif.Common Require Import Res.
From Verif.BTree Require Import Tree TreeFacts Balance Search Spec SearchFacts Ops Iter OpsFacts SpecFacts Refine Refine2 Api ApiSpec.
Local Open Scope nat_scope.
Local Open Scope res_scope.

Section ApiFacts.
Context {V K : Type} (key : V -> K) (lt : K -> K -> bool) (kN : nat) (m : mode).
Context (Hlt : swo lt) (HkN : 3 <= kN).
Implicit Types (b : btree V) (v : V) (k : K) (c d : cursor V) (l : list V).
Notation srt := (sorted key lt (multi m)).
Notation repr := (repr key lt kN m).
Notation lower := (lower key lt). Notation upper := (upper key lt). Notation has := (has key lt).
Notation set_insert := (set_insert key lt).
Notation call := (call key lt kN m). Notation run := (run key lt kN m).
Notation step := (step key lt (multi m)). Notation steps := (steps key lt (multi m)). Notation safe := (safe key lt (multi m)).
Notation insert_spec := (insert_spec key lt (multi m)).

(** ** lists *)
Lemma equiv_lookup k l j v : srt l -> l !! j = Some v -> equiv lt (key v) k = (lower k l <=? j) && (j <? upper k l).
Proof.
  intros Hs Hj. unfold equiv. rewrite (lower_lookup key lt (multi m) Hlt k l j v), (upper_lookup key lt (multi m) Hlt k l j v) by done. lia.
Qed.
Lemma segments k l : srt l -> exists A B C, l = A ++ B ++ C /\ length A = lower k l /\ length B = upper k l - lower k l /\
  Forall (fun v => equiv lt (key v) k = false) A /\ Forall (fun v => equiv lt (key v) k = true) B /\ Forall (fun v => equiv lt (key v) k = false) C.
Proof.
  intros Hs. pose proof (lower_upper key lt Hlt k l) as H1. pose proof (upper_le key lt k l) as H2.
  exists (take (lower k l) l), (take (upper k l - lower k l) (drop (lower k l) l)), (drop (upper k l) l).
  assert (Heq : l = take (lower k l) l ++ take (upper k l - lower k l) (drop (lower k l) l) ++ drop (upper k l) l).
  { replace (drop (upper k l) l) with (drop (upper k l - lower k l) (drop (lower k l) l)) by (rewrite drop_drop; f_equal; lia). by rewrite !take_drop. }
  split; [done|]. rewrite !take_length, drop_length. split; [lia|]. split; [lia|].
  split_and!; apply Forall_lookup; intros j v Hj.
  - rewrite lookup_take_Some in Hj. destruct Hj as [Hj Hl]. rewrite (equiv_lookup k l j v) by done. lia.
  - rewrite lookup_take_Some, lookup_drop in Hj. destruct Hj as [Hj Hl]. rewrite (equiv_lookup k l _ v Hs Hj). lia.
  - rewrite lookup_drop in Hj. rewrite (equiv_lookup k l _ v Hs Hj). lia.
Qed.
Lemma remove_equiv k l : srt l -> remove_at (lower k l) (upper k l - lower k l) l = List.filter (fun v => negb (equiv lt (key v) k)) l.
Proof.
  intros Hs. destruct (segments k l Hs) as (A & B & C & He & HA & HB & FA & FB & FC). unfold remove_at.
  pose proof (lower_upper key lt Hlt k l) as Hlu. rewrite <- HB, <- HA. clear HA HB Hlu. subst l. rewrite !List.filter_app.
  rewrite (filter_all _ A), (filter_none _ B), (filter_all _ C).
  - cbn [app]. rewrite take_app_alt by lia. rewrite drop_app_ge by lia. rewrite drop_app_alt; [done|]. lia.
  - eapply Forall_impl; [exact FC|]. intros v Hv. cbn in *. by rewrite Hv.
  - eapply Forall_impl; [exact FB|]. intros v Hv. cbn in *. by rewrite Hv.
  - eapply Forall_impl; [exact FA|]. intros v Hv. cbn in *. by rewrite Hv.
Qed.
Lemma count_equiv k l : srt l -> length (List.filter (fun v => equiv lt (key v) k) l) = upper k l - lower k l.
Proof.
  intros Hs. destruct (segments k l Hs) as (A & B & C & He & HA & HB & FA & FB & FC).
  rewrite He at 1. rewrite !List.filter_app, (filter_none _ A), (filter_all _ B), (filter_none _ C), app_nil_r by done. done.
Qed.
Lemma one_if_has k l : multi m = false -> srt l -> (if has k l then 1 else 0) = upper k l - lower k l.
Proof.
  intros Hmu Hs. rewrite (has_spec key lt (multi m) Hlt k l Hs). pose proof (unique_upper key lt (multi m) Hlt k l Hmu Hs). pose proof (lower_upper key lt Hlt k l).
  destruct (lower k l <? upper k l) eqn:E; lia.
Qed.
Lemma upper_absent k l : srt l -> has k l = false -> upper k l = lower k l.
Proof. intros Hs Hh. rewrite (has_spec key lt (multi m) Hlt k l Hs) in Hh. pose proof (lower_upper key lt Hlt k l). lia. Qed.
Lemma set_insert_spec v l : multi m = false -> srt l -> set_insert v l = insert_spec v l.
Proof.
  intros Hmu Hs. unfold Refine.set_insert, ApiSpec.insert_spec. rewrite Hmu. cbn [negb andb]. destruct (has (key v) l) eqn:E; [done|].
  by rewrite upper_absent.
Qed.
Lemma fold_insert_spec vs l : multi m = false -> srt l -> fold_left (fun l v => set_insert v l) vs l = fold_left (fun l v => insert_spec v l) vs l.
Proof.
  intros Hmu. revert l. induction vs as [|v vs IH]; intros l Hs; cbn [fold_left]; [done|].
  rewrite IH; [by rewrite set_insert_spec|]. unfold Refine.set_insert. destruct (has (key v) l) eqn:E; [done|].
  apply sorted_insert; auto. split; [done|]. rewrite upper_absent; done.
Qed.

Lemma kept_filter (pred : V -> bool) a l : kept (fun asked v => (asked ++ [v], pred v)) a l = (a ++ l, List.filter (fun v => negb (pred v)) l).
Proof. revert a. induction l as [|v l IH]; intros a; cbn [kept List.filter]; [by rewrite app_nil_r|]. rewrite IH, <- app_assoc. by destruct (pred v). Qed.

(** ** positions *)
Lemma at_index_spec b l i : repr b l -> i <= length l -> exists c, at_index b i = Ok c /\ it (b_root b) i c.
Proof.
  intros Hb Hi. destruct (begin_it key lt kN m b l Hb) as (g & Hg & Hig). unfold at_index. rewrite Hg. cbn [rbind].
  pose proof Hb as (Hsh & Hl & _). destruct (advance_spec kN HkN b 0 i g Hsh Hig) as (c & Hc & Hic); [by rewrite Hl|]. eauto.
Qed.
Lemma index_of_spec b l i c : repr b l -> it (b_root b) i c -> index_of b c = Ok i.
Proof.
  intros Hb Hc. destruct (begin_it key lt kN m b l Hb) as (g & Hg & Hig). unfold index_of. rewrite Hg. cbn [rbind].
  pose proof Hb as (Hsh & Hl & _). rewrite (distance_spec kN HkN b 0 i g c); auto; [f_equal; lia|lia|].
  rewrite (repr_size key lt kN m b l Hb). pose proof (it_bound key lt kN m b l i c Hb Hc). lia.
Qed.

Definition good b l (o : op V K) : Prop := exists b' r l', call b o = Ok (b', r) /\ step l o l' r /\ repr b' l'.
Ltac fin := do 3 eexists; split; [reflexivity|split; [|eassumption]].
Lemma call_spec b l (o : op V K) : repr b l -> pre key l o -> good b l o.
Proof.
  intros Hb Hp. pose proof Hb as (Hsh & Hel & Hs). unfold good. destruct o as [v|i v|vs|k|i|i j|pred| |i|k|k|k|k|k|k|k|i| | | | | |i v|]; cbn [Api.call ApiSpec.step pre] in *.
  - destruct (multi m) eqn:Hmu.
    + destruct (insert_multi_spec key lt kN m Hlt HkN b l v Hmu Hb) as (b' & c' & -> & Hb' & Hc'). cbn [rbind with_pos].
      rewrite (index_of_spec b' _ _ c' Hb' Hc'). cbn [rbind]. fin. unfold ApiSpec.insert_spec. done.
    + destruct (insert_unique_spec key lt kN m Hlt HkN b l v Hmu Hb) as (b' & c' & -> & Hb' & Hc' & _). cbn [rbind with_pos].
      rewrite (index_of_spec b' _ _ c' Hb' Hc'). cbn [rbind]. fin. split; [|done]. pose proof (set_insert_spec v l Hmu) as Hx. rewrite Hmu in Hx. by apply Hx.
  - destruct (at_index_spec b l i Hb Hp) as (c & -> & Hc). cbn [rbind]. destruct (multi m) eqn:Hmu.
    + destruct (insert_hint_multi_spec key lt kN m Hlt HkN b l i c v Hmu Hb Hc) as (b' & c' & -> & Hb' & Hc'). cbn [rbind with_pos].
      rewrite (index_of_spec b' _ _ c' Hb' Hc'). cbn [rbind]. fin. done.
    + destruct (insert_hint_unique_spec key lt kN m Hlt HkN b l i c v Hmu Hb Hc) as (b' & c' & -> & Hb' & Hc' & _). cbn [rbind with_pos].
      rewrite (index_of_spec b' _ _ c' Hb' Hc'). cbn [rbind]. fin. split; [|done]. pose proof (set_insert_spec v l Hmu) as Hx. rewrite Hmu in Hx. by apply Hx.
  - destruct (multi m) eqn:Hmu.
    + destruct (insert_iterator_multi_spec key lt kN m Hlt HkN b l vs Hmu Hb) as (b' & -> & Hb'). cbn [rbind]. fin. done.
    + destruct (insert_iterator_unique_spec key lt kN m Hlt HkN b l vs Hmu Hb) as (b' & -> & Hb'). cbn [rbind]. fin. split; [|done].
      pose proof (fold_insert_spec vs l Hmu) as Hx. rewrite Hmu in Hx. by apply Hx.
  - rewrite count_equiv, <- remove_equiv by done. destruct (multi m) eqn:Hmu.
    + destruct (erase_multi_spec key lt kN m Hlt HkN b l k Hb) as (b' & -> & Hb'). cbn [rbind]. fin. done.
    + destruct (erase_unique_spec key lt kN m Hlt HkN b l k Hmu Hb) as (b' & -> & Hb'). cbn [rbind]. fin.
      rewrite one_if_has; [done|done|]. by rewrite Hmu.
  - destruct (at_index_spec b l i Hb) as (c & -> & Hc); [lia|]. cbn [rbind].
    destruct (erase_it key lt kN m HkN b l i c Hb Hc Hp) as (b' & c' & -> & Hb' & Hc'). cbn [rbind with_pos].
    rewrite (index_of_spec b' _ _ c' Hb' Hc'). cbn [rbind]. fin. done.
  - destruct (at_index_spec b l i Hb) as (c & -> & Hc); [lia|]. cbn [rbind]. destruct (at_index_spec b l j Hb) as (d & -> & Hd); [lia|]. cbn [rbind].
    destruct (erase_range_spec key lt kN m HkN b l i j c d Hb Hc Hd) as (b' & c' & -> & Hb' & Hc'); [lia|]. cbn [rbind with_pos].
    rewrite (index_of_spec b' _ _ c' Hb' Hc'). cbn [rbind]. fin. done.
  - destruct (erase_if_spec key lt kN m HkN (fun asked v => (asked ++ [v], pred v)) [] b l Hb) as (b' & -> & Hb'). rewrite kept_filter in *. cbn [fst snd app] in *. cbn [rbind]. fin. done.
  - do 3 eexists. split; [reflexivity|]. split; [done|]. apply (repr_new key lt kN m HkN).
  - destruct (at_index_spec b l i Hb) as (c & -> & Hc); [lia|]. cbn [rbind]. destruct (lookup_lt_is_Some_2 l i Hp) as [v Hv].
    destruct (extract_spec key lt kN m HkN b l i c v Hb Hc Hv) as (b' & -> & Hb'). cbn [rbind]. fin. eauto.
  - destruct (find_spec key lt kN m Hlt HkN b l k Hb) as (c & -> & Hc). cbn [rbind]. destruct (end_it key lt kN m b l Hb) as (e & -> & He). cbn [rbind].
    destruct (has k l) eqn:Hh.
    + destruct Hc as (i & v & Hc & Hv & Hq & Hi). rewrite (same_r key lt kN m b l i (length l) c e Hb Hc He). pose proof (lookup_lt_Some _ _ _ Hv).
      replace (i =? length l) with false by lia. destruct (extract_spec key lt kN m HkN b l i c v Hb Hc Hv) as (b' & -> & Hb'). cbn [rbind]. fin.
      exists i, v. split; [|done]. split; [done|]. split; [done|]. intros Hmu. apply Hi. rewrite Hmu. by destruct (three m).
    + rewrite (same_r key lt kN m b l _ (length l) c e Hb Hc He), Nat.eqb_refl. fin. done.
  - destruct (find_spec key lt kN m Hlt HkN b l k Hb) as (c & -> & Hc). cbn [rbind]. destruct (has k l) eqn:Hh.
    + destruct Hc as (i & v & Hc & Hv & Hq & Hi). rewrite (index_of_spec b l i c Hb Hc). cbn [rbind]. fin. split; [done|].
      exists i, v. split; [|done]. split; [done|]. split; [done|]. intros Hmu. apply Hi. rewrite Hmu. by destruct (three m).
    + rewrite (index_of_spec b l _ c Hb Hc). cbn [rbind]. fin. done.
  - destruct (find_spec key lt kN m Hlt HkN b l k Hb) as (c & -> & Hc). cbn [rbind]. destruct (end_it key lt kN m b l Hb) as (e & -> & He). cbn [rbind].
    do 3 eexists. split; [reflexivity|]. split; [split; [reflexivity|]|done]. f_equal. destruct (has k l) eqn:Hh.
    + destruct Hc as (i & v & Hc & Hv & _). rewrite (same_r key lt kN m b l i (length l) c e Hb Hc He). pose proof (lookup_lt_Some _ _ _ Hv). lia.
    + rewrite (same_r key lt kN m b l _ (length l) c e Hb Hc He). lia.
  - rewrite count_equiv by done. destruct (multi m) eqn:Hmu.
    + rewrite (count_multi_spec key lt kN m Hlt HkN b l k Hb). cbn [rbind]. fin. done.
    + rewrite (count_unique_spec key lt kN m Hlt HkN b l k Hb). cbn [rbind]. fin. rewrite one_if_has; [done|done|]. by rewrite Hmu.
  - destruct (lower_bound_spec key lt kN m Hlt HkN b l k Hb) as (c & -> & Hc). cbn [rbind]. rewrite (index_of_spec b l _ c Hb Hc). cbn [rbind]. fin. done.
  - destruct (upper_bound_spec key lt kN m Hlt HkN b l k Hb) as (c & -> & Hc). cbn [rbind]. rewrite (index_of_spec b l _ c Hb Hc). cbn [rbind]. fin. done.
  - destruct (lower_bound_spec key lt kN m Hlt HkN b l k Hb) as (c & -> & Hc). cbn [rbind]. destruct (upper_bound_spec key lt kN m Hlt HkN b l k Hb) as (d & -> & Hd). cbn [rbind].
    rewrite (index_of_spec b l _ c Hb Hc). cbn [rbind]. rewrite (index_of_spec b l _ d Hb Hd). cbn [rbind]. fin. done.
  - destruct (at_index_spec b l i Hb) as (c & -> & Hc); [lia|]. cbn [rbind]. destruct (value_it key lt kN m b l i c Hb Hc Hp) as (v & Hv & ->). cbn [rbind]. fin. eauto.
  - fin. split; [done|]. by rewrite (repr_size key lt kN m b l Hb).
  - fin. split; [done|]. by rewrite (repr_empty key lt kN m b l Hb).
  - rewrite (values_spec key kN HkN b Hsh), Hel. cbn [rbind]. fin. done.
  - rewrite (rvalues_spec key kN HkN b Hsh), Hel. cbn [rbind]. fin. done.
  - destruct (copy_spec key lt kN m Hlt HkN b l Hb) as (b' & -> & Hb'). cbn [rbind]. fin. done.
  - destruct Hp as (w & Hw & Hk). pose proof (lookup_lt_Some _ _ _ Hw). destruct (at_index_spec b l i Hb) as (c & -> & Hc); [lia|]. cbn [rbind].
    destruct (assign_spec key lt kN m HkN b l i c v w Hb Hc Hw Hk) as (b' & c' & -> & Hb' & _). cbn [rbind]. fin. done.
  - destruct (height_spec key kN HkN b Hsh) as (h & -> & Hh & _). cbn [rbind]. fin. split; [done|]. rewrite Hel in Hh. eauto.
Qed.
Theorem run_spec b l ops : repr b l -> safe l ops -> exists b' rs l', run b ops = Ok (b', rs) /\ steps l ops l' rs /\ repr b' l'.
Proof.
  revert b l. induction ops as [|o ops IH]; intros b l Hb Hs; cbn [Api.run].
  - exists b, [], l. done.
  - destruct Hs as [Hp Hs]. destruct (call_spec b l o Hb Hp) as (b1 & r & l1 & -> & Hst & Hb1). cbn [rbind].
    destruct (IH b1 l1 Hb1 (Hs _ _ Hst)) as (b' & rs & l' & -> & Hsts & Hb'). cbn [rbind].
    exists b', (r :: rs), l'. split; [done|]. split; [|done]. cbn. eauto.
Qed.
End ApiFacts.
