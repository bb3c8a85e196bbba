(** Threads that also call for_each, for_each_m and clear (include/gtl/phmap.hpp:3576-3583, 3979-3995) on a parallel
    container: calls that go through the submaps one after the other, holding one lock at a time. *)
From stdpp Require Import list.
From Coq Require Import Arith NArith ZArith Lia.
From Verif.Common Require Import Res Word.
From Verif.Swiss Require Import Group GroupSpec Model Probe Inv TableInv Resize Ops MapSpec History Multi MultiSpec MultiProof.
From Verif.Par Require Import Seq SeqProof Conc ConcProof ConcMap ConcMapProof.
Local Open Scope nat_scope.
Local Open Scope res_scope.

(** ** What a user sees *)
Inductive ucall (K V : Type) :=
| UCall (o : cop K V)
| UForEach                     (* for_each: the callback reads the elements *)
| UForEachM (f : V -> V)       (* for_each_m: the callback replaces every mapped value v by f v *)
| UClear.                      (* clear *)
Arguments UCall {K V}.  Arguments UForEach {K V}.  Arguments UForEachM {K V}.  Arguments UClear {K V}.
(** the part of a call that concerns one submap *)
Inductive wop (K V : Type) :=
| WCall (o : cop K V) | WVisit (i : nat) (upd : option (V -> V)) | WClear (i : nat).
Arguments WCall {K V}.  Arguments WVisit {K V}.  Arguments WClear {K V}.
Inductive wout (K V : Type) := WRes (r : cout V) | WSeen (l : list (K * V)) | WDone | WSize (n : nat).
Arguments WRes {K V}.  Arguments WSeen {K V}.  Arguments WDone {K V}.  Arguments WSize {K V}.

Section Spec.
Context {K V : Type} (sub : K -> nat) (step : list (K * V) -> cop K V -> cout V -> list (K * V) -> Prop).
(** one part of a call, on the whole map; [sub] is the submap of a key *)
Definition w_step (m : list (K * V)) (o : wop K V) (r : wout K V) (m' : list (K * V)) : Prop :=
  match o with
  | WCall o => exists r0, r = WRes r0 /\ step m o r0 m'
  | WVisit i None => exists l, r = WSeen l /\ Permutation l (List.filter (fun e => sub (fst e) =? i) m) /\ m' = m
  | WVisit i (Some f) => exists l, r = WSeen l /\ Permutation l (List.filter (fun e => sub (fst e) =? i) m) /\
      m' = map (fun e => if sub (fst e) =? i then (fst e, f (snd e)) else e) m
  | WClear i => r = WDone /\ m' = List.filter (fun e => negb (sub (fst e) =? i)) m
  end.
End Spec.

(** ** The code *)
Section Code.
Context {K V : Type} (hash : K -> N) (eqb : K -> K -> bool) (E : env) (lg : nat) (dc : disc).
Notation table := (table K V).
Notation wcmd := (cmd table (wout K V)).
Fixpoint lift (c : cmd table (cout V)) : wcmd :=
  match c with
  | CDone r => CDone (WRes r)
  | CLock m d k => CLock m d (lift k)
  | CUnlock m d k => CUnlock m d (lift k)
  | CRead m k => CRead m (fun t => lift (k t))
  | CWrite m g k => CWrite m g (fun t => lift (k t))
  | CFail => CFail
  end.
(* std::for_each(inner.set_.begin(), inner.set_.end(), fCallback): *it, the callback, ++it *)
Fixpoint visit_loop (m : nat) (d : mode) (upd : option (V -> V)) (fuel : nat) (last j : nat) (acc : list (K * V)) : wcmd :=
  match fuel with
  | O => CFail
  | S f =>
      if j =? last then CUnlock m d (CDone (WSeen (rev acc)))
      else CRead m (fun t =>
        match deref t j with
        | Ok e =>
            let next := CRead m (fun t => match next_it E t j with Ok j' => visit_loop m d upd f last j' (e :: acc) | _ => CFail end) in
            match upd with
            | None => next
            | Some g => CWrite m (fun t => match assign_at t j (g (snd e)) with Ok t' => t' | _ => t end)
                               (fun t => match assign_at t j (g (snd e)) with Ok _ => next | _ => CFail end)
            end
        | _ => CFail
        end)
  end.
(* one turn of the loop of for_each (3980-3983) and of for_each_m (3989-3992) *)
Definition visit_code (m : nat) (upd : option (V -> V)) : wcmd :=
  let d := match upd with None => smode dc | Some _ => Excl end in
  CLock m d (CRead m (fun t =>
    match begin_it E t with
    | Ok j => CRead m (fun t => visit_loop m d upd (S (t_cap t)) (t_cap t) j [])
    | _ => CFail
    end)).
(* one turn of the loop of clear (3577-3580) *)
Definition clear_code (m : nat) : wcmd :=
  CLock m Excl (CWrite m (fun t => match clear E t with Ok t' => t' | _ => t end)
                         (fun t => match clear E t with Ok _ => CUnlock m Excl (CDone WDone) | _ => CFail end)).
(* i is below the number of submaps (see [parts]); the remainder makes the function total *)
Definition submap (i : nat) : nat := i mod num_tables lg.
Definition wcode (o : wop K V) : wcmd :=
  match o with
  | WCall o => lift (code hash eqb E lg dc o)
  | WVisit i upd => visit_code (submap i) upd
  | WClear i => clear_code (submap i)
  end.
(* for (auto& inner : sets_) ...: nothing is kept between two turns *)
Definition parts (u : ucall K V) : list (wop K V) :=
  match u with
  | UCall o => [WCall o]
  | UForEach => map (fun i => WVisit i None) (seq 0 (num_tables lg))
  | UForEachM f => map (fun i => WVisit i (Some f)) (seq 0 (num_tables lg))
  | UClear => map WClear (seq 0 (num_tables lg))
  end.
Definition expand (us : list (ucall K V)) : list (wop K V) := flat_map parts us.
End Code.

(** ** Threads make their calls in order *)
Section Order.
Context {T O R : Type} (code : O -> cmd T R) (pref : bool) (ts : list T) (progs : list (list O)).
Record ordered (s : state T O R) (tr : list (event O R)) : Prop := {
  o_res : forall i th, st_threads s !! i = Some th -> forall n, n < th_n th -> exists r, In (ERes (i, n) r) tr;
  o_prev : forall i n o, In (EInv (i, n) o) tr -> forall n', n' < n -> returned_before tr (i, n') (i, n);
  o_todo : forall i th, st_threads s !! i = Some th -> exists os, progs !! i = Some os /\
    match th_cur th with None => th_todo th = drop (th_n th) os | Some (o, _) => os !! th_n th = Some o /\ th_todo th = drop (S (th_n th)) os end;
  o_inv : forall i n o, In (EInv (i, n) o) tr -> exists os, progs !! i = Some os /\ os !! n = Some o
}.
Lemma returned_app (tr ev : list (event O R)) a b : returned_before tr a b -> returned_before (tr ++ ev) a b.
Proof using. intros (t1 & t2 & r & o & -> & Hin). exists t1, (t2 ++ ev), r, o. rewrite <- app_assoc. split; [reflexivity|]. apply in_or_app. auto. Qed.
Lemma ordered_same s tr i th th' : ordered s tr -> st_threads s !! i = Some th -> th_n th' = th_n th ->
  (forall o c, th_cur th = Some (o, c) -> exists c', th_cur th' = Some (o, c') /\ th_todo th' = th_todo th) -> th_cur th <> None ->
  forall s', st_threads s' = <[i := th']> (st_threads s) -> ordered s' tr.
Proof using.
  intros [H1 H2 H3 H4] Hi Hn Hc Hne s' Hs'. assert (Hlt : i < length (st_threads s)) by (eapply lookup_lt_Some; exact Hi).
  split; [| assumption | | assumption]; rewrite Hs'; intros j thj Hj; rewrite lookup_ins in Hj by assumption; destruct (decide (i = j)) as [<-|Hne2].
  - injection Hj as <-. rewrite Hn. eapply H1; eassumption.
  - eapply H1; eassumption.
  - injection Hj as <-. destruct (H3 i th Hi) as (os & Ho & Hm). exists os. split; [assumption|]. destruct (th_cur th) as [[o c]|]; [|contradiction].
    destruct (Hc o c eq_refl) as (c' & -> & ->). rewrite Hn. assumption.
  - eapply H3; eassumption.
Qed.
Lemma reach_ordered s tr : reach code pref (start ts progs) s tr -> ordered s tr.
Proof using.
  induction 1 as [|s tr i s' ev Hr IH Hst].
  - split; [| |  |]; cbn; try contradiction.
    + intros i th Hi n Hn. rewrite list_lookup_fmap in Hi. destruct (progs !! i); cbn in Hi; [|discriminate]. injection Hi as <-. cbn in Hn. lia.
    + intros i th Hi. rewrite list_lookup_fmap in Hi. destruct (progs !! i) as [os|]; cbn in Hi; [|discriminate]. injection Hi as <-. exists os. split; reflexivity.
  - unfold step in Hst. destruct (st_threads s !! i) as [th|] eqn:Hi; [|discriminate].
    assert (Hlt : i < length (st_threads s)) by (eapply lookup_lt_Some; exact Hi).
    destruct (th_cur th) as [[o c]|] eqn:Hcur.
    + assert (Hsame : forall c s2, st_threads s2 = <[i := go th o c]> (st_threads s) -> ordered s2 (tr ++ [])).
      { intros c2 s2 Hs2. rewrite app_nil_r. eapply (ordered_same s tr i th (go th o c2)); [exact IH|exact Hi|reflexivity| |congruence|exact Hs2].
        intros o' c' Hc'. rewrite Hcur in Hc'. injection Hc' as <- _. exists c2. split; reflexivity. }
      destruct c as [r|m d k|m d k|m k|m g k|].
      * injection Hst as <- <-. destruct IH as [H1 H2 H3 H4]. cbn [st_threads set_thread].
        assert (Hin : forall i' n o', In (EInv (i', n) o') (tr ++ [ERes (i, th_n th) r]) -> In (EInv (i', n) o') tr).
        { intros i' n o' Hin. apply in_app_or in Hin. destruct Hin as [Hin|[Hin|[]]]; [assumption|discriminate]. }
        split.
        -- cbn [st_threads set_thread]. intros j thj Hj n Hn. rewrite lookup_ins in Hj by assumption. destruct (decide (i = j)) as [<-|Hne].
           ++ injection Hj as <-. cbn in Hn. destruct (decide (n = th_n th)) as [->|]; [exists r; apply in_or_app; right; left; reflexivity|].
              destruct (H1 i th Hi n ltac:(lia)) as [r' Hr']. exists r'. apply in_or_app. auto.
           ++ destruct (H1 j thj Hj n Hn) as [r' Hr']. exists r'. apply in_or_app. auto.
        -- intros i' n o' Hi' n' Hn'. apply returned_app. eapply H2; eauto.
        -- cbn [st_threads set_thread]. intros j thj Hj. rewrite lookup_ins in Hj by assumption. destruct (decide (i = j)) as [<-|Hne]; [|eauto].
           injection Hj as <-. destruct (H3 i th Hi) as (os & Ho & Hm). rewrite Hcur in Hm. exists os. split; [assumption|]. cbn. apply Hm.
        -- intros i' n o' Hi'. eauto.
      * destruct (st_locks s !! m) as [l|]; [|discriminate]. destruct (owns l i); [discriminate|]. destruct (free_for pref s m l d); [|discriminate].
        injection Hst as <- <-. eapply Hsame. reflexivity.
      * destruct (st_locks s !! m) as [l|]; [|discriminate]. destruct (release l i d) as [l'|]; [|discriminate].
        injection Hst as <- <-. eapply Hsame. reflexivity.
      * destruct (st_shards s !! m) as [t|]; [|discriminate]. injection Hst as <- <-. eapply Hsame. reflexivity.
      * destruct (st_shards s !! m) as [t|]; [|discriminate]. injection Hst as <- <-. eapply Hsame. reflexivity.
      * discriminate.
    + destruct (th_todo th) as [|o os] eqn:Htodo; [discriminate|]. injection Hst as <- <-. destruct IH as [H1 H2 H3 H4].
      destruct (H3 i th Hi) as (all & Ho & Hm). rewrite Hcur, Htodo in Hm.
      assert (Hnth : all !! th_n th = Some o).
      { rewrite <- (Nat.add_0_r (th_n th)), <- lookup_drop, <- Hm. reflexivity. }
      assert (Hrest : os = drop (S (th_n th)) all).
      { rewrite (drop_S _ _ _ Hnth) in Hm. injection Hm as ->. reflexivity. }
      split.
      * cbn [st_threads set_thread]. intros j thj Hj n Hn. rewrite lookup_ins in Hj by assumption. destruct (decide (i = j)) as [<-|Hne].
        -- injection Hj as <-. cbn in Hn. destruct (H1 i th Hi n Hn) as [r' Hr']. exists r'. apply in_or_app. auto.
        -- destruct (H1 j thj Hj n Hn) as [r' Hr']. exists r'. apply in_or_app. auto.
      * intros i' n o' Hi' n' Hn'. apply in_app_or in Hi'. destruct Hi' as [Hi'|[Hi'|[]]].
        -- apply returned_app. eapply H2; eauto.
        -- injection Hi' as <- <- <-. destruct (H1 i th Hi n' Hn') as [r' Hr']. apply in_split in Hr'. destruct Hr' as (t1 & t2 & ->).
           exists t1, (t2 ++ [EInv (i, th_n th) o]), r', o. rewrite <- app_assoc. split; [reflexivity|]. apply in_or_app. right. left. reflexivity.
      * cbn [st_threads set_thread]. intros j thj Hj. rewrite lookup_ins in Hj by assumption. destruct (decide (i = j)) as [<-|Hne]; [|eauto].
        injection Hj as <-. exists all. split; [assumption|]. cbn. auto.
      * intros i' n o' Hi'. apply in_app_or in Hi'. destruct Hi' as [Hi'|[Hi'|[]]]; [eauto|]. injection Hi' as <- <- <-. eauto.
Qed.
End Order.

(** ** proofs *)
Section Proof.
Context {K V : Type} (hash : K -> N) (eqb : K -> K -> bool) (E : env) (lg : nat) (dc : disc).
Context (HE : env_ok E) (HK : KeyOK hash eqb).
Set Default Proof Using "HE HK".
Notation elt := (K * V)%type.
Notation table := (table K V).
Notation good := (good hash eqb E).
Notation tinv := (tinv hash eqb E).
Notation sub := (fun k => subidx lg (hash k)).
Notation sgood := (sgood hash eqb E lg).
Notation wcode := (wcode hash eqb E lg dc).

Definition wshard (o : wop K V) : nat :=
  match o with WCall o => shard hash lg o | WVisit i _ => submap lg i | WClear i => submap lg i end.
Definition wspec (o : wop K V) (t : table) (r : wout K V) (t' : table) : Prop :=
  match o with
  | WCall o => exists r0, r = WRes r0 /\ spec hash eqb E lg dc o t r0 t'
  | WVisit i None => r = WSeen (pe t) /\ t' = t /\ sgood (wshard o) t'
  | WVisit i (Some f) => r = WSeen (pe t) /\ pe t' = map (fun e => (fst e, f (snd e))) (pe t) /\ sgood (wshard o) t'
  | WClear i => r = WDone /\ pe t' = [] /\ sgood (wshard o) t'
  end.
Lemma wshard_lt o : wshard o < num_tables lg.
Proof using. destruct o as [o|i u|i]; cbn; [apply subidx_lt| |]; apply Nat.mod_upper_bound; pose proof (num_pos lg); lia. Qed.

Lemma sec_lift m d (c : cmd table (cout V)) : forall t, sec m d (lift c) t = match sec m d c t with Some (t', c') => Some (t', lift c') | None => None end.
Proof using.
  induction c as [r|m' d' k IH|m' d' k IH|m' k IH|m' g k IH|]; intros t; cbn; try reflexivity.
  - destruct (_ && _); reflexivity.
  - destruct (m =? m'); [apply IH|reflexivity].
  - destruct d; [|reflexivity]. destruct (m =? m'); [apply IH|reflexivity].
Qed.
Lemma section_lift o : forall d c, section_ok (shard hash lg) (spec hash eqb E lg dc) sgood o d c ->
  section_ok wshard wspec sgood (WCall o) d (lift c).
Proof using.
  fix IH 3. intros d c [H]. constructor. intros t Ht. destruct (H t Ht) as (t' & c' & Hs & Hc).
  exists t', (lift c'). split; [cbn [wshard]; rewrite sec_lift, Hs; reflexivity|]. destruct Hc as [(r & -> & Hsp & Hg & Hd)|(-> & d' & c'' & -> & Hok)].
  - left. exists (WRes r). split; [reflexivity|]. split; [exists r; auto|]. auto.
  - right. split; [reflexivity|]. exists d', (lift c''). split; [reflexivity|]. apply IH. exact Hok.
Qed.

Lemma elems_app (l1 l2 : list (option elt)) : elems (l1 ++ l2) = elems l1 ++ elems l2.
Proof using. apply omap_app. Qed.
Lemma elems_one (sl : list (option elt)) j e : sl !! j = Some (Some e) -> elems (drop j sl) = e :: elems (drop (S j) sl).
Proof using. intros H. rewrite (drop_S _ _ _ H). reflexivity. Qed.
Lemma elems_split (sl : list (option elt)) j : elems sl = elems (take j sl) ++ elems (drop j sl).
Proof using. rewrite <- elems_app, take_drop. reflexivity. Qed.
Lemma visit_sec m d (upd : option (V -> V)) (Hd : upd <> None -> d = Excl) :
  let g e := match upd with None => e | Some f => (fst e, f (snd e)) end in
  forall fuel (t : table) j acc, good t -> at_slot t j -> t_cap t - j < fuel ->
  exists t', sec m d (visit_loop E m d upd fuel (t_cap t) j acc) t = Some (t', CDone (WSeen (rev acc ++ elems (drop j (t_slots t))))) /\ good t' /\
    (upd = None -> t' = t) /\ elems (t_slots t') = elems (take j (t_slots t)) ++ map g (elems (drop j (t_slots t))).
Proof.
  intros g. induction fuel as [|fuel IH]; intros t j acc Hg Hat Hf; [lia|]. cbn [visit_loop].
  destruct (Nat.eqb_spec j (t_cap t)) as [->|Hj].
  - assert (Hlen : length (t_slots t) = t_cap t).
    { destruct Hg as [->|Ht]; [reflexivity|apply (ti_slen _ _ _ _ (tv_0 _ _ _ _ Ht))]. }
    cbn [sec]. rewrite Nat.eqb_refl, bool_decide_eq_true_2 by reflexivity. rewrite drop_ge, take_ge by lia. exists t. cbn. rewrite !app_nil_r.
    split; [reflexivity|]. split; [assumption|]. split; reflexivity.
  - destruct Hat as [Hle [He|(e & He)]]; [contradiction|].
    assert (Ht : tinv t) by (destruct Hg as [->|Ht]; [cbn in *; lia|assumption]).
    cbn [sec]. rewrite Nat.eqb_refl. unfold deref. rewrite (load_some _ _ _ He). cbn [rbind of_option].
    assert (Hnext : forall t1 : table, tinv t1 -> t_cap t1 = t_cap t -> elems (take (S j) (t_slots t1)) = elems (take j (t_slots t)) ++ [g e] ->
        elems (drop (S j) (t_slots t1)) = elems (drop (S j) (t_slots t)) -> (upd = None -> t1 = t) ->
        exists t', sec m d (CRead m (fun t => match next_it E t j with Ok j' => visit_loop E m d upd fuel (t_cap t1) j' (e :: acc) | _ => CFail end)) t1 =
          Some (t', CDone (WSeen (rev acc ++ elems (drop j (t_slots t))))) /\ good t' /\
          (upd = None -> t' = t) /\ elems (t_slots t') = elems (take j (t_slots t)) ++ map g (elems (drop j (t_slots t)))).
    { intros t1 Ht1 Hcap Htk Hdr Hsame. destruct (next_ok hash eqb E HE HK t1 j Ht1 ltac:(lia)) as (j' & Hn & Hr & Hor & Hdrop & _).
      cbn [sec]. rewrite Nat.eqb_refl, Hn. destruct (IH t1 j' (e :: acc)) as (t' & Hs & Hg' & Hu & He').
      - right; assumption.
      - split; [lia|assumption].
      - lia.
      - exists t'. rewrite Hs. split.
        + do 2 f_equal. f_equal. f_equal. cbn [rev]. rewrite <- app_assoc. cbn. rewrite (elems_one _ _ _ He), <- Hdr, Hdrop. reflexivity.
        + split; [assumption|]. split; [intros Hnone; rewrite (Hu Hnone); auto|]. rewrite He', (elems_one _ _ _ He). cbn [map].
          rewrite <- Hdr, Hdrop. assert (Htake : elems (take j' (t_slots t1)) = elems (take (S j) (t_slots t1))).
          { apply (app_inv_tail (elems (drop j' (t_slots t1)))). rewrite <- elems_split. rewrite <- Hdrop at 1. rewrite <- elems_split. reflexivity. }
          rewrite Htake, Htk, <- app_assoc. reflexivity. }
    assert (Htk : forall (sl' : list (option elt)) x, take (S j) (<[j := x]> sl') = take j sl' ++ [x] \/ length sl' <= j).
    { intros sl' x. destruct (decide (j < length sl')) as [Hl|Hl]; [left|right; lia]. rewrite (take_S_r _ _ x) by (apply list_lookup_insert; assumption).
      rewrite take_insert by lia. reflexivity. }
    destruct upd as [f|] eqn:Hupd.
    + rewrite (Hd ltac:(discriminate)) in *. destruct (assign_ok hash eqb E HE HK t j e (f (snd e)) Ht He) as (t1 & Ha & Ht1 & Hsl & _ & Hc1).
      cbn [sec]. rewrite Nat.eqb_refl, Ha. rewrite <- Hc1. apply Hnext; [assumption|assumption| | |discriminate].
      * rewrite Hsl. destruct (Htk (t_slots t) (Some (fst e, f (snd e)))) as [->|Hl]; [|apply lookup_lt_Some in He; lia]. rewrite elems_app. reflexivity.
      * rewrite Hsl, drop_insert_gt by lia. reflexivity.
    + apply Hnext; [assumption|reflexivity| |reflexivity|reflexivity].
      rewrite (take_S_r _ _ _ He), elems_app. reflexivity.
Qed.
Lemma visit_ok i upd : call_ok wcode wshard wspec sgood (WVisit i upd).
Proof.
  unfold call_ok. cbn [ConcWhole.wcode wshard]. set (m := submap lg i). unfold visit_code. eexists _, _. split; [reflexivity|].
  constructor. intros t Ht. destruct Ht as [Hg Hk]. cbn [wshard]. fold m. set (d := match upd with None => smode dc | Some _ => Excl end).
  destruct (good_begin hash eqb E HE HK t Hg) as (j & Hb & Hat & Hel). cbn [sec]. rewrite !Nat.eqb_refl, Hb. cbn [sec]. rewrite !Nat.eqb_refl.
  destruct (visit_sec m d upd ltac:(intros Hn; unfold d; destruct upd; [reflexivity|contradiction]) (S (t_cap t)) t j [] Hg Hat ltac:(lia)) as (t' & Hs & Hg' & Hu & He').
  exists t', (CDone (WSeen (pe t))). split; [rewrite Hs, Hel; reflexivity|]. left. exists (WSeen (pe t)). split; [reflexivity|].
  assert (Hpe : pe t' = map (fun e => match upd with None => e | Some f => (fst e, f (snd e)) end) (pe t)).
  { unfold pe in *. rewrite He', Hel. assert (Ht0 : elems (take j (t_slots t)) = []); [|rewrite Ht0; reflexivity].
    apply (app_inv_tail (elems (drop j (t_slots t)))). rewrite <- elems_split. cbn. congruence. }
  assert (Hsg : sgood m t').
  { split; [assumption|]. intros e He. rewrite Hpe in He. apply in_map_iff in He. destruct He as (x & <- & Hx). destruct upd; cbn; auto. }
  split; [|split; [assumption|]].
  - unfold wspec. destruct upd as [f|]; (split; [reflexivity|]); (split; [|assumption]); [exact Hpe|apply Hu; reflexivity].
  - intros Hsh. eapply sec_shared. rewrite <- Hsh. exact Hs.
Qed.
Lemma clear_code_ok i : call_ok wcode wshard wspec sgood (WClear i).
Proof.
  unfold call_ok. cbn [ConcWhole.wcode wshard]. unfold clear_code. eexists _, _. split; [reflexivity|]. constructor. intros t [Hg Hk].
  cbn [wshard]. destruct (clear_ok hash eqb E HE HK t Hg) as (t' & Hc & Hg' & _ & He & _).
  exists t', (CDone WDone). cbn [sec]. rewrite !Nat.eqb_refl, Hc. cbn [sec]. rewrite Nat.eqb_refl. split; [reflexivity|]. left. exists WDone. split; [reflexivity|].
  assert (Hsg : sgood (submap lg i) t') by (split; [assumption|]; unfold pe; rewrite He; intros e []).
  split; [split; [reflexivity|split; [exact He|exact Hsg]]|]. split; [exact Hsg|discriminate].
Qed.
Lemma wcode_ok o : call_ok wcode wshard wspec sgood o.
Proof.
  destruct o as [o|i u|i]; [|apply visit_ok|apply clear_code_ok].
  destruct (code_ok hash eqb E lg dc HE HK o) as (d & c & Hc & Hok). exists d, (lift c). cbn [ConcWhole.wcode wshard]. rewrite Hc.
  split; [reflexivity|]. apply section_lift. exact Hok.
Qed.

(** from submaps to one map *)
Notation PR := (PR hash eqb E lg).
Notation wop_step := (w_step (fun k => subidx lg (hash k)) (cstep eqb dc)).
Lemma filter_here m (t : table) rest : (forall e, In e (pe t) -> subidx lg (hash (fst e)) = m) ->
  (forall e, In e rest -> subidx lg (hash (fst e)) <> m) ->
  List.filter (fun e => subidx lg (hash (fst e)) =? m) (pe t ++ rest) = pe t.
Proof using.
  intros H1 H2. rewrite List.filter_app.
  assert (Ha : forall l, (forall e, In e l -> subidx lg (hash (fst e)) = m) -> List.filter (fun e : elt => subidx lg (hash (fst e)) =? m) l = l).
  { induction l as [|x l IH]; intros H; [reflexivity|]. cbn. rewrite (H x) by (left; reflexivity). rewrite Nat.eqb_refl, IH by (intros e He; apply H; right; assumption). reflexivity. }
  assert (Hb : forall l, (forall e, In e l -> subidx lg (hash (fst e)) <> m) -> List.filter (fun e : elt => subidx lg (hash (fst e)) =? m) l = []).
  { induction l as [|x l IH]; intros H; [reflexivity|]. cbn. rewrite (proj2 (Nat.eqb_neq _ _)) by (apply H; left; reflexivity). apply IH. intros e He. apply H. right. assumption. }
  rewrite (Ha _ H1), (Hb _ H2). apply app_nil_r.
Qed.
Lemma filter_perm (p : elt -> bool) l l' : l ≡ₚ l' -> List.filter p l ≡ₚ List.filter p l'.
Proof using.
  induction 1; cbn.
  - constructor.
  - destruct (p x); [constructor; assumption|assumption].
  - destruct (p x), (p y); try reflexivity. constructor.
  - etransitivity; eassumption.
Qed.
Lemma w_frame ps m o r t t' : PR ps m -> ps !! wshard o = Some t -> wspec o t r t' ->
  match o with WCall _ => True | WVisit i _ | WClear i => i < num_tables lg end ->
  exists m', wop_step m o r m' /\ PR (<[wshard o := t']> ps) m'.
Proof.
  intros HPR Ht Hsp Hi. pose proof HPR as [Hg Hp]. destruct (pelems_focus ps _ _ Ht) as (rest & Hr1 & Hr2 & Hr3).
  assert (Hhere : forall e, In e (pe t) -> subidx lg (hash (fst e)) = wshard o) by (intros e He; eapply (pg_routed _ _ _ _ _ Hg); eassumption).
  assert (Helse : forall e, In e rest -> subidx lg (hash (fst e)) <> wshard o).
  { intros e He Heq. destruct (Hr3 e He) as (j & t2 & Hne & Hj & Hin). rewrite (pg_routed _ _ _ _ _ Hg _ _ _ Hj Hin) in Heq. contradiction. }
  assert (Hseen : forall i, wshard o = i -> pe t ≡ₚ List.filter (fun e => subidx lg (hash (fst e)) =? i) m).
  { intros i <-. rewrite <- (filter_here (wshard o) t rest Hhere Helse) at 1. apply filter_perm. rewrite <- Hp, Hr1. reflexivity. }
  destruct o as [o|i [f|]|i]; cbn [wspec w_step wshard] in *.
  - destruct Hsp as (r0 & -> & (a' & Hst & Hp') & Hg'). destruct (frame_c hash eqb E dc HE HK m (pe t) rest a' o r0) as (m2 & Hst2 & Hm2).
    + eapply PR_distinct; eassumption.
    + rewrite <- Hp. assumption.
    + eapply focus_distinct; [eassumption|eassumption|eapply pg_routed; eassumption|exact Ht|reflexivity|exact Hr3].
    + assumption.
    + exists m2. split; [exists r0; auto|]. split.
      * destruct Hg' as [Hg1 Hg2]. eapply pgood_insert; eassumption.
      * rewrite Hr2, Hp', Hm2. reflexivity.
  - destruct Hsp as (-> & Hpe & [Hg1 Hg2]). unfold submap in *. rewrite Nat.mod_small in * by assumption. eexists. split; [|split].
    + exists (pe t). split; [reflexivity|]. split; [apply Hseen; reflexivity|reflexivity].
    + eapply pgood_insert; eassumption.
    + rewrite Hr2, Hpe. rewrite <- Hp, Hr1, map_app. apply Permutation_app.
      * erewrite map_ext_in; [reflexivity|]. intros e He. cbn. rewrite (Hhere e He), Nat.eqb_refl. reflexivity.
      * rewrite <- (map_id rest) at 1. erewrite map_ext_in; [reflexivity|]. intros e He. cbn. rewrite (proj2 (Nat.eqb_neq _ _)) by (apply Helse; assumption). reflexivity.
  - destruct Hsp as (-> & -> & [Hg1 Hg2]). unfold submap in *. rewrite Nat.mod_small in * by assumption. exists m. split.
    + exists (pe t). split; [reflexivity|]. split; [apply Hseen; reflexivity|reflexivity].
    + rewrite list_insert_id by assumption. assumption.
  - destruct Hsp as (-> & Hpe & [Hg1 Hg2]). unfold submap in *. rewrite Nat.mod_small in * by assumption. eexists. split; [|split].
    + split; reflexivity.
    + eapply pgood_insert; eassumption.
    + rewrite Hr2, Hpe. cbn. rewrite <- (filter_perm _ _ _ Hp), (filter_perm _ _ _ Hr1), List.filter_app.
      assert (Ha : List.filter (fun e : elt => negb (subidx lg (hash (fst e)) =? i)) (pe t) = []).
      { clear -Hhere. induction (pe t) as [|x l IH]; [reflexivity|]. cbn. rewrite (Hhere x) by (left; reflexivity). rewrite Nat.eqb_refl. cbn. apply IH. intros e He. apply Hhere. right. assumption. }
      assert (Hb : List.filter (fun e : elt => negb (subidx lg (hash (fst e)) =? i)) rest = rest).
      { clear -Helse. induction rest as [|x l IH]; [reflexivity|]. cbn. rewrite (proj2 (Nat.eqb_neq _ _)) by (apply Helse; left; reflexivity). cbn. f_equal. apply IH. intros e He. apply Helse. right. assumption. }
      rewrite Ha, Hb. reflexivity.
Qed.
(** a sequence of parts of calls, with the maps in between *)
Definition okpart (o : wop K V) : Prop := match o with WCall _ => True | WVisit i _ | WClear i => i < num_tables lg end.
Lemma w_seq ps ps' m (L : list (entry (wop K V) (wout K V))) : PR ps m -> seqrun wshard wspec ps L ps' -> (forall id o r, In (id, o, r) L -> okpart o) ->
  exists ms : nat -> list elt, ms 0 = m /\ (forall j id o r, L !! j = Some (id, o, r) -> wop_step (ms j) o r (ms (S j))) /\ PR ps' (ms (length L)) /\ forall j, distinct eqb (ms j).
Proof.
  intros HPR Hrun. induction Hrun as [ps|ps L ps' id o r t t' Hrun IH Ht Hsp]; intros Hok.
  - exists (fun _ => m). split; [reflexivity|]. split; [intros j id o r Hj; discriminate|]. split; [assumption|]. intros _. eapply PR_distinct; eassumption.
  - destruct IH as (ms & H0 & Hst & HPR' & Hdist); [assumption|intros id' o' r' Hin; eapply Hok; apply in_or_app; left; exact Hin|].
    destruct (w_frame ps' (ms (length L)) o r t t' HPR' Ht Hsp) as (m' & Hst' & HPR2); [eapply (Hok id o r); apply in_or_app; right; left; reflexivity|].
    exists (fun j => if j <=? length L then ms j else m'). split; [exact H0|]. split; [|split].
    + unfold entry in *. intros j id' o' r' Hj. destruct (decide (j < length L)) as [Hlt|Hge].
      * rewrite lookup_app_l in Hj by assumption. rewrite (proj2 (Nat.leb_le _ _)) by lia. rewrite (proj2 (Nat.leb_le (S j) _)) by lia. eauto.
      * rewrite lookup_app_r in Hj by lia. destruct (j - length L) as [|z] eqn:Hz; [|destruct z; discriminate]. cbn in Hj. injection Hj as <- <- <-.
        assert (j = length L) as -> by lia. rewrite Nat.leb_refl. rewrite (proj2 (Nat.leb_gt (S (length L)) _)) by lia. assumption.
    + rewrite app_length. cbn. rewrite (proj2 (Nat.leb_gt (length L + 1) _)) by lia. assumption.
    + intros j. destruct (j <=? length L); [apply Hdist|eapply PR_distinct; eassumption].
Qed.
(** what is seen of one key *)
Lemma seen_of_key (m : list elt) k : distinct eqb m -> forall i l, l ≡ₚ List.filter (fun e => subidx lg (hash (fst e)) =? i) m ->
  List.filter (fun e => eqb k (fst e)) l = (if subidx lg (hash k) =? i then match s_find eqb m k with Some e => [e] | None => [] end else []).
Proof.
  intros Hd i l Hl.
  assert (Hone : List.filter (fun e => eqb k (fst e)) m = match s_find eqb m k with Some e => [e] | None => [] end).
  { clear Hl. induction m as [|x m IH]; [reflexivity|]. cbn. destruct Hd as [Hx Hd]. destruct (eqb k (fst x)) eqn:Hk; [|apply IH; assumption].
    f_equal. assert (Hnone : forall e, In e m -> eqb k (fst e) = false).
    { intros e He. destruct (eqb k (fst e)) eqn:Hke; [|reflexivity]. rewrite <- (Hx e He). symmetry. eapply (ko_trans _ _ HK); [rewrite (ko_sym _ _ HK); exact Hk|exact Hke]. }
    clear -Hnone. induction m as [|y m IH]; [reflexivity|]. cbn. rewrite (Hnone y) by (left; reflexivity). apply IH. intros e He. apply Hnone. right. assumption. }
  assert (Hcomm : List.filter (fun e => eqb k (fst e)) (List.filter (fun e => subidx lg (hash (fst e)) =? i) m) =
    (if subidx lg (hash k) =? i then match s_find eqb m k with Some e => [e] | None => [] end else [])).
  { rewrite <- Hone. clear Hone Hl Hd. induction m as [|x m IH]; [destruct (_ =? _); reflexivity|]. cbn. destruct (eqb k (fst x)) eqn:Hk.
    - rewrite <- (ko_hash _ _ HK _ _ Hk). destruct (_ =? _) eqn:Hi; cbn; [rewrite Hk; f_equal; exact IH|exact IH].
    - destruct (subidx lg (hash (fst x)) =? i); cbn; [rewrite Hk|]; exact IH. }
  pose proof (filter_perm (fun e => eqb k (fst e)) _ _ Hl) as Hp. rewrite Hcomm in Hp.
  destruct (_ =? _); [|symmetry in Hp; apply Permutation_nil in Hp; exact Hp].
  destruct (s_find eqb m k) as [e|]; [symmetry in Hp; apply Permutation_length_1_inv in Hp; exact Hp|symmetry in Hp; apply Permutation_nil in Hp; exact Hp].
Qed.
End Proof.

(** size() (3560-3565) takes no lock: it reads the number of elements of one submap after the other *)
Section Size.
Context {K V : Type} (hash : K -> N) (eqb : K -> K -> bool) (E : env) (lg : nat) (dc : disc).
Fixpoint size_code (is : list nat) (acc : nat) : cmd (table K V) (wout K V) :=
  match is with
  | [] => CDone (WSize acc)
  | i :: is' => CRead i (fun t => size_code is' (acc + t_size t))
  end.
(** single-key calls, and size() as [None] *)
Definition scode (o : option (cop K V)) : cmd (table K V) (wout K V) :=
  match o with Some o => lift (code hash eqb E lg dc o) | None => size_code (seq 0 (num_tables lg)) 0 end.
End Size.
