(** Property theorems about threads that call for_each, for_each_m and clear beside single-key calls (C60). *)
From stdpp Require Import list list_numbers.
From Coq Require Import Arith NArith ZArith Lia.
From Verif.Common Require Import Res Word.
From Verif.Swiss Require Import Group GroupSpec Model Probe Inv TableInv Resize Ops MapSpec History Multi MultiSpec MultiProof MultiHistory PropsTable PropsMulti.
From Verif.Par Require Import Seq SeqSpec SeqProof PropsSeq Conc ConcProof ConcMap ConcMapProof PropsConc ConcWhole.
Local Open Scope nat_scope.
Local Open Scope res_scope.

(** the call [u] of a thread that makes the calls [us]; its parts have the numbers n0, n0 + 1, ... *)
Definition call_at {K V} (lg : nat) (us : list (ucall K V)) (n0 : nat) (u : ucall K V) : Prop :=
  exists before after, us = before ++ u :: after /\ n0 = length (expand lg before).
(** position j of the order L is not before the first and not after the last part of the call of thread i *)
Definition during {O R} (lg : nat) (L : list (entry O R)) (i n0 j : nat) : Prop :=
  exists a b x y, a <= j <= b /\ L !! a = Some x /\ e_id x = (i, n0) /\ L !! b = Some y /\ e_id y = (i, n0 + num_tables lg - 1).
Definition one_or_none {A} (o : option A) : list A := match o with Some x => [x] | None => [] end.

Section Setup.
Context {K V : Type} (hash : K -> N) (eqb : K -> K -> bool) (E : env) (lg : nat) (dc : disc).
Context (HE : env_ok E) (HK : KeyOK hash eqb) (Hlg : lg <= 12).
Notation wcode := (wcode hash eqb E lg dc).
Notation elt := (K * V)%type.
Notation sub := (fun k : K => subidx lg (hash k)).

Lemma expand_at (us : list (ucall K V)) n0 u q o : call_at lg us n0 u -> parts lg u !! q = Some o -> expand lg us !! (n0 + q) = Some o.
Proof using.
  clear Hlg.
  intros (before & after & -> & ->) Hq. unfold expand. rewrite flat_map_app. rewrite lookup_app_r by lia.
  replace (length (flat_map (parts lg) before) + q - length (flat_map (parts lg) before)) with q by lia. cbn. apply lookup_app_l_Some. exact Hq.
Qed.
Lemma parts_ok (us : list (ucall K V)) n o : expand lg us !! n = Some o -> okpart lg o.
Proof using.
  clear Hlg.
  intros H. apply elem_of_list_lookup_2, elem_of_list_In in H. apply in_flat_map in H. destruct H as (u & _ & H).
  destruct u as [o'| |f|]; cbn in H.
  - destruct H as [<-|[]]. exact I.
  - apply in_map_iff in H. destruct H as (i & <- & Hi). apply in_seq in Hi. cbn. lia.
  - apply in_map_iff in H. destruct H as (i & <- & Hi). apply in_seq in Hi. cbn. lia.
  - apply in_map_iff in H. destruct H as (i & <- & Hi). apply in_seq in Hi. cbn. lia.
Qed.
Lemma wshard_len (ps : list (table K V)) m : PR hash eqb E lg ps m -> forall o : wop K V, wshard hash lg o < length ps.
Proof using. intros [Hg _] o. rewrite (pg_len _ _ _ _ _ Hg). apply wshard_lt. Qed.

Lemma whole_ok pref (os : list (op K V)) ps rs (uprogs : list (list (ucall K V))) s tr :
  Forall (p_op_ok E lg) os -> p_run hash eqb E lg (p_empty lg) os = Ok (ps, rs) ->
  reach wcode pref (start ps (map (expand lg) uprogs)) s tr ->
  (exists m0 L (ms : nat -> list elt), s_run eqb [] os rs m0 /\ ms 0 = m0 /\ linearization tr L /\
    (forall j id o r, L !! j = Some (id, o, r) -> w_step sub (cstep eqb dc) (ms j) o r (ms (S j))) /\
    (forall j, distinct eqb (ms j)) /\ (idle s -> PR hash eqb E lg (st_shards s) (ms (length L)))) /\
  (forall i, step wcode pref s i <> Some UB).
Proof using HE HK Hlg.
  intros Ho Hrun Hreach. destruct (setup hash eqb E lg HE HK Hlg os ps rs Ho Hrun) as (m0 & Hs0 & HPR).
  destruct (linearizable wcode pref (wshard hash lg) (wspec hash eqb E lg dc) (sgood hash eqb E lg) (wcode_ok hash eqb E lg dc HE HK)
    ps _ s tr (wshard_len _ _ HPR) (shards_good hash eqb E lg _ _ HPR) Hreach) as [(L & vs & HL & Hseq & _ & Hid) Hub].
  split; [|assumption]. destruct (w_seq hash eqb E lg dc HE HK ps vs m0 L HPR Hseq) as (ms & H0 & Hst & HPR' & Hd).
  { intros [i n] o r Hin. pose proof (lin_called _ _ HL _ _ _ Hin) as Hinv. destruct (o_inv _ _ _ (reach_ordered _ _ _ _ _ _ Hreach) _ _ _ Hinv) as (ws & Hws & Hn).
    rewrite list_lookup_fmap in Hws. destruct (uprogs !! i); [|discriminate]. cbn in Hws. injection Hws as <-. eapply parts_ok. exact Hn. }
  exists m0, L, ms. split; [assumption|]. split; [assumption|]. split; [assumption|]. split; [assumption|]. split; [assumption|].
  intros Hi. rewrite (Hid Hi). assumption.
Qed.

(** a completed call: its parts are in L, in order *)
Lemma nodup_pos {A B} (f : A -> B) (L : list A) a b x y : NoDup (map f L) -> L !! a = Some x -> L !! b = Some y -> f x = f y -> a = b.
Proof using.
  clear Hlg.
  intros Hn Ha Hb Hf. eapply NoDup_lookup; [exact Hn| |]; rewrite list_lookup_fmap.
  - rewrite Ha. reflexivity.
  - rewrite Hb. cbn. rewrite Hf. reflexivity.
Qed.
Lemma part_pos pref ps (uprogs : list (list (ucall K V))) s tr L i us n0 u (rs : nat -> wout K V) :
  reach wcode pref (start ps (map (expand lg) uprogs)) s tr -> linearization tr L -> uprogs !! i = Some us -> call_at lg us n0 u ->
  length (parts lg u) = num_tables lg -> (forall q, q < num_tables lg -> In (ERes (i, n0 + q) (rs q)) tr) ->
  forall q o, parts lg u !! q = Some o -> exists j, L !! j = Some ((i, n0 + q), o, rs q) /\ during lg L i n0 j.
Proof using.
  clear Hlg.
  intros Hreach HL Hus Hat Hlen Hres. pose proof (reach_ordered _ _ _ _ _ _ Hreach) as Hord.
  assert (Hpos : forall q o, parts lg u !! q = Some o -> exists j, L !! j = Some ((i, n0 + q), o, rs q)).
  { intros q o Hq. assert (Hlt : q < num_tables lg) by (rewrite <- Hlen; eapply lookup_lt_Some; exact Hq).
    destruct (lin_complete _ _ HL _ _ (Hres q Hlt)) as (o' & Hin). pose proof (lin_called _ _ HL _ _ _ Hin) as Hinv.
    destruct (o_inv _ _ _ Hord _ _ _ Hinv) as (ws & Hws & Hn). rewrite list_lookup_fmap, Hus in Hws. cbn in Hws. injection Hws as <-.
    rewrite (expand_at us n0 u q o Hat Hq) in Hn. injection Hn as <-. apply elem_of_list_In, elem_of_list_lookup_1 in Hin. exact Hin. }
  assert (Hle : forall q q' o o' j j', q <= q' -> L !! j = Some ((i, n0 + q), o, rs q) -> L !! j' = Some ((i, n0 + q'), o', rs q') -> j <= j').
  { intros q q' o o' j j' Hq Hj Hj'. destruct (decide (q = q')) as [<-|Hne].
    - assert (j = j'); [|lia]. eapply (nodup_pos e_id); [apply (lin_once _ _ HL)|exact Hj|exact Hj'|reflexivity].
    - assert (Hinv : In (EInv (i, n0 + q') o') tr) by (eapply (lin_called _ _ HL); apply elem_of_list_In, elem_of_list_lookup_2 with j'; exact Hj').
      pose proof (o_prev _ _ _ Hord _ _ _ Hinv (n0 + q) ltac:(lia)) as Hb.
      destruct (lin_order _ _ HL _ _ Hb) as (a & b & x & y & Hab & Ha & Hbb & Hx & Hy).
      { apply in_map_iff. exists ((i, n0 + q'), o', rs q'). split; [reflexivity|]. apply elem_of_list_In, elem_of_list_lookup_2 with j'. exact Hj'. }
      assert (a = j) by (eapply (nodup_pos e_id); [apply (lin_once _ _ HL)|exact Ha|exact Hj|exact Hx]).
      assert (b = j') by (eapply (nodup_pos e_id); [apply (lin_once _ _ HL)|exact Hbb|exact Hj'|exact Hy]). lia. }
  intros q o Hq. destruct (Hpos q o Hq) as (j & Hj). exists j. split; [assumption|]. pose proof (num_pos lg) as Hnum.
  assert (Hlt : q < num_tables lg) by (rewrite <- Hlen; eapply lookup_lt_Some; exact Hq).
  destruct (lookup_lt_is_Some_2 (parts lg u) 0 ltac:(lia)) as (of & Hof). destruct (lookup_lt_is_Some_2 (parts lg u) (num_tables lg - 1) ltac:(lia)) as (ol & Hol).
  destruct (Hpos _ _ Hof) as (a & Ha). destruct (Hpos _ _ Hol) as (b & Hb). exists a, b. eexists _, _.
  split; [split; [eapply (Hle 0 q); [lia|exact Ha|exact Hj]|eapply (Hle q (num_tables lg - 1)); [lia|exact Hj|exact Hb]]|].
  split; [exact Ha|]. split; [cbn; rewrite Nat.add_0_r; reflexivity|]. split; [exact Hb|]. cbn. f_equal. lia.
Qed.
Lemma filter_flat_map (p : elt -> bool) (ls : nat -> list elt) (q0 : nat) l : forall is,
  (forall q, In q is -> q <> q0 -> List.filter p (ls q) = []) -> List.filter p (ls q0) = l -> NoDup is -> In q0 is ->
  List.filter p (flat_map ls is) = l.
Proof using.
  clear Hlg.
  assert (Hnil : forall is, (forall q, In q is -> List.filter p (ls q) = []) -> List.filter p (flat_map ls is) = []).
  { induction is as [|x is IH]; intros H; [reflexivity|]. cbn. rewrite List.filter_app, (H x) by (left; reflexivity). apply IH. intros q Hq. apply H. right. assumption. }
  induction is as [|x is IH]; intros Ho H0 Hn Hin; [destruct Hin|]. cbn. rewrite List.filter_app. apply NoDup_cons in Hn as [Hx Hn].
  destruct (decide (x = q0)) as [->|Hne].
  - rewrite H0, Hnil; [apply app_nil_r|]. intros q Hq. apply Ho; [right; assumption|]. intros ->. apply Hx. apply elem_of_list_In. assumption.
  - rewrite (Ho x) by (auto; left; reflexivity). apply IH; auto. + intros q Hq. apply Ho. right. assumption. + destruct Hin; [contradiction|assumption].
Qed.
Lemma s_find_map (m : list elt) k f i : subidx lg (hash k) = i ->
  s_find eqb (map (fun e => if subidx lg (hash (fst e)) =? i then (fst e, f (snd e)) else e) m) k =
  option_map (fun e => (fst e, f (snd e))) (s_find eqb m k).
Proof using HK.
  clear Hlg.
  intros Hi. induction m as [|x m IH]; [reflexivity|]. cbn.
  destruct (eqb k (fst x)) eqn:Hk.
  - rewrite <- (ko_hash _ _ HK _ _ Hk), Hi, Nat.eqb_refl. cbn. rewrite Hk. reflexivity.
  - destruct (_ =? i); cbn; rewrite Hk; exact IH.
Qed.
Lemma s_find_cleared (m : list elt) k i : subidx lg (hash k) = i ->
  s_find eqb (List.filter (fun e => negb (subidx lg (hash (fst e)) =? i)) m) k = None.
Proof using HK.
  clear Hlg.
  intros Hi. apply s_find_none. intros e He. apply filter_In in He. destruct He as [_ He]. destruct (eqb k (fst e)) eqn:Hk; [|reflexivity].
  rewrite <- (ko_hash _ _ HK _ _ Hk), Hi, Nat.eqb_refl in He. discriminate.
Qed.
Lemma parts_seq {A} (g : nat -> A) q : q < num_tables lg -> map g (seq 0 (num_tables lg)) !! q = Some (g q).
Proof using. intros H. rewrite list_lookup_fmap. rewrite (proj2 (lookup_seq 0 _ q q)) by auto. reflexivity. Qed.
Lemma seen_once L (ms : nat -> list elt) upd (ls : nat -> list elt) k i n0 :
  (forall j id o r, L !! j = Some (id, o, r) -> w_step sub (cstep eqb dc) (ms j) o r (ms (S j))) -> (forall j, distinct eqb (ms j)) ->
  (forall q, q < num_tables lg -> exists j, L !! j = Some ((i, n0 + q), WVisit q upd, WSeen (ls q)) /\ during lg L i n0 j) ->
  exists j, during lg L i n0 j /\
    List.filter (fun e => eqb k (fst e)) (flat_map ls (seq 0 (num_tables lg))) = one_or_none (s_find eqb (ms j) k) /\
    (forall f, upd = Some f -> s_find eqb (ms (S j)) k = option_map (fun e => (fst e, f (snd e))) (s_find eqb (ms j) k)).
Proof using HE HK Hlg.
  intros Hst Hd Hparts.
  assert (Hsee : forall q j, L !! j = Some ((i, n0 + q), WVisit q upd, WSeen (ls q)) ->
    Permutation (ls q) (List.filter (fun e => subidx lg (hash (fst e)) =? q) (ms j)) /\
    forall f, upd = Some f -> ms (S j) = map (fun e => if subidx lg (hash (fst e)) =? q then (fst e, f (snd e)) else e) (ms j)).
  { intros q j Hj. specialize (Hst _ _ _ _ Hj). destruct upd as [f|]; cbn in Hst.
    - destruct Hst as (l & Hl & Hp & Hm). injection Hl as <-. split; [assumption|]. intros f' Hf. injection Hf as <-. exact Hm.
    - destruct Hst as (l & Hl & Hp & Hm). injection Hl as <-. split; [assumption|discriminate]. }
  set (q0 := subidx lg (hash k)). assert (Hq0 : q0 < num_tables lg) by apply subidx_lt.
  destruct (Hparts q0 Hq0) as (j & Hj & Hdur). exists j. split; [assumption|]. destruct (Hsee q0 j Hj) as [Hp Hm]. split.
  - apply (filter_flat_map _ ls q0).
    + intros q Hq Hne. apply in_seq in Hq. destruct (Hparts q ltac:(lia)) as (j' & Hj' & _). destruct (Hsee q j' Hj') as [Hp' _].
      rewrite (seen_of_key hash eqb E lg HE HK (ms j') k (Hd j') q _ Hp'). fold q0. rewrite (proj2 (Nat.eqb_neq _ _)) by congruence. reflexivity.
    + rewrite (seen_of_key hash eqb E lg HE HK (ms j) k (Hd j) q0 _ Hp). fold q0. rewrite Nat.eqb_refl. reflexivity.
    + apply NoDup_seq.
    + apply in_seq. lia.
  - intros f Hf. rewrite (Hm f Hf). apply s_find_map. reflexivity.
Qed.
End Setup.

(** C60.  A parallel map with any number 2^lg of submaps, filled by any single-threaded program [os]; any number of
    threads then make any calls, among them for_each, for_each_m and clear, interleaved arbitrarily; either kind of
    mutex.  There is one order L of the parts of all calls (a single-key call is one part), compatible with real
    time, and contents ms 0, ms 1, ... in between, such that
    - every part acts on the contents as specified, and single-key calls return what they would return then;
    - a completed for_each passed to its callback, for every key k, exactly the element of k (none if there was
      none) of one moment during the call;
    - so did a completed for_each_m, and at that moment it replaced the mapped value by what the callback makes of it;
    - for every key there is a moment during a completed clear() just after which it is absent;
    and no call has undefined behaviour or loops. *)
Theorem C60_whole_container_calls : forall (K V : Type) (hash : K -> N) (eqb : K -> K -> bool) (E : env) (lg : nat) (dc : disc) (pref : bool)
    (os : list (op K V)) ps rs (uprogs : list (list (ucall K V))) s tr,
  real_env E -> KeyOK hash eqb -> lg <= 12 -> Forall (p_op_ok E lg) os -> p_run hash eqb E lg (p_empty lg) os = Ok (ps, rs) ->
  reach (wcode hash eqb E lg dc) pref (start ps (map (expand lg) uprogs)) s tr ->
  (exists m0 L (ms : nat -> list (K * V)), s_run eqb [] os rs m0 /\ ms 0 = m0 /\ linearization tr L /\
    (forall j id o r, L !! j = Some (id, o, r) -> w_step (fun k => subidx lg (hash k)) (cstep eqb dc) (ms j) o r (ms (S j))) /\
    (idle s -> exists l, p_to_list E (st_shards s) = Ok l /\ Permutation l (ms (length L))) /\
    (forall i us n0 (ls : nat -> list (K * V)), uprogs !! i = Some us -> call_at lg us n0 UForEach ->
      (forall q, q < num_tables lg -> In (ERes (i, n0 + q) (WSeen (ls q))) tr) ->
      forall k, exists j, during lg L i n0 j /\
        List.filter (fun e => eqb k (fst e)) (flat_map ls (seq 0 (num_tables lg))) = one_or_none (s_find eqb (ms j) k)) /\
    (forall i us n0 f (ls : nat -> list (K * V)), uprogs !! i = Some us -> call_at lg us n0 (UForEachM f) ->
      (forall q, q < num_tables lg -> In (ERes (i, n0 + q) (WSeen (ls q))) tr) ->
      forall k, exists j, during lg L i n0 j /\
        List.filter (fun e => eqb k (fst e)) (flat_map ls (seq 0 (num_tables lg))) = one_or_none (s_find eqb (ms j) k) /\
        s_find eqb (ms (S j)) k = option_map (fun e => (fst e, f (snd e))) (s_find eqb (ms j) k)) /\
    (forall i us n0, uprogs !! i = Some us -> call_at lg us n0 UClear ->
      (forall q, q < num_tables lg -> In (ERes (i, n0 + q) WDone) tr) ->
      forall k, exists j, during lg L i n0 j /\ s_find eqb (ms (S j)) k = None)) /\
  (forall i, step (wcode hash eqb E lg dc) pref s i <> Some UB).
Proof.
  intros K V hash eqb E lg dc pref os ps rs uprogs s tr HE HK Hlg Ho Hrun Hreach. pose proof (real_env_ok E HE) as HE'.
  destruct (whole_ok hash eqb E lg dc HE' HK Hlg pref os ps rs uprogs s tr Ho Hrun Hreach) as [(m0 & L & ms & H1 & H2 & H3 & H4 & H5 & H6) H7].
  split; [|assumption]. exists m0, L, ms. split; [assumption|]. split; [assumption|]. split; [assumption|]. split; [assumption|]. split; [|split; [|split]].
  - intros Hi. destruct (H6 Hi) as [Hg Hp]. exists (pelems (st_shards s)). split; [|assumption].
    apply (p_to_list_ok hash eqb E HE' HK); [apply (pg_good _ _ _ _ _ Hg)|]. rewrite (pg_len _ _ _ _ _ Hg). apply num_pos.
  - intros i us n0 ls Hus Hat Hres k.
    destruct (seen_once hash eqb E lg dc HE' HK Hlg L ms None ls k i n0 H4 H5) as (j & Hd & Hf & _); [|eauto].
    intros q Hq. eapply (part_pos hash eqb E lg dc pref ps uprogs s tr L i us n0 _ (fun q => WSeen (ls q)) Hreach H3 Hus Hat); [|assumption|].
    + cbn. rewrite map_length, seq_length. reflexivity.
    + exact (parts_seq lg (fun i => WVisit i None) q Hq).
  - intros i us n0 f ls Hus Hat Hres k.
    destruct (seen_once hash eqb E lg dc HE' HK Hlg L ms (Some f) ls k i n0 H4 H5) as (j & Hd & Hf & Hm); [|eauto 6].
    intros q Hq. eapply (part_pos hash eqb E lg dc pref ps uprogs s tr L i us n0 _ (fun q => WSeen (ls q)) Hreach H3 Hus Hat); [|assumption|].
    + cbn. rewrite map_length, seq_length. reflexivity.
    + exact (parts_seq lg (fun i => WVisit i (Some f)) q Hq).
  - intros i us n0 Hus Hat Hres k. pose proof (subidx_lt lg (hash k)) as Hq.
    destruct (part_pos hash eqb E lg dc pref ps uprogs s tr L i us n0 _ (fun _ => WDone) Hreach H3 Hus Hat) with (q := subidx lg (hash k)) (o := @WClear K V (subidx lg (hash k)))
      as (j & Hj & Hd).
    + cbn. rewrite map_length, seq_length. reflexivity.
    + assumption.
    + exact (parts_seq lg WClear _ Hq).
    + exists j. split; [assumption|]. specialize (H4 _ _ _ _ Hj). cbn in H4. destruct H4 as [_ ->]. apply s_find_cleared; [assumption|reflexivity].
Qed.
Print Assumptions C60_whole_container_calls.

(** C60, memory safety and progress: no data race, no undefined behaviour; some thread can go on as long as a call is
    in progress or to be made, and no execution is infinite. *)
Theorem C60_no_data_race_progress : forall (K V : Type) (hash : K -> N) (eqb : K -> K -> bool) (E : env) (lg : nat) (dc : disc) (pref : bool)
    (os : list (op K V)) ps rs (uprogs : list (list (ucall K V))) s tr,
  real_env E -> KeyOK hash eqb -> lg <= 12 -> Forall (p_op_ok E lg) os -> p_run hash eqb E lg (p_empty lg) os = Ok (ps, rs) ->
  reach (wcode hash eqb E lg dc) pref (start ps (map (expand lg) uprogs)) s tr ->
  ~ race s /\ (~ finished s -> exists i s' ev, step (wcode hash eqb E lg dc) pref s i = Some (Ok (s', ev))) /\
  Acc (fun s' s => exists i ev, step (wcode hash eqb E lg dc) pref s i = Some (Ok (s', ev))) s.
Proof.
  intros K V hash eqb E lg dc pref os ps rs uprogs s tr HE HK Hlg Ho Hrun Hreach. pose proof (real_env_ok E HE) as HE'.
  destruct (setup hash eqb E lg HE' HK Hlg os ps rs Ho Hrun) as (m0 & _ & HPR). split; [|split; [|apply terminates]].
  - eapply (no_race (wcode hash eqb E lg dc) pref (wshard hash lg) (wspec hash eqb E lg dc) (sgood hash eqb E lg) (wcode_ok hash eqb E lg dc HE' HK));
      [eapply wshard_len; exact HPR|eapply shards_good; exact HPR|exact Hreach].
  - eapply (progress (wcode hash eqb E lg dc) pref (wshard hash lg) (wspec hash eqb E lg dc) (sgood hash eqb E lg) (wcode_ok hash eqb E lg dc HE' HK));
      [eapply wshard_len; exact HPR|eapply shards_good; exact HPR|exact Hreach].
Qed.
Print Assumptions C60_no_data_race_progress.

(** ** Keys nobody touches *)
Section Still.
Context {K V : Type} (hash : K -> N) (eqb : K -> K -> bool) (HK : KeyOK hash eqb) (lg : nat) (dc : disc).
(** the call leaves the element of key k alone *)
Definition spares (k : K) (u : ucall K V) : Prop := match u with UCall o => eqb k (c_key o) = false | UForEach => True | UForEachM _ | UClear => False end.
Definition part_spares (k : K) (o : wop K V) : Prop := match o with WCall o => eqb k (c_key o) = false | WVisit _ None => True | _ => False end.
Lemma find_update_other (m : list (K * V)) k k' v : eqb k k' = false -> s_find eqb (s_update eqb m k' v) k = s_find eqb m k.
Proof using HK.
  intros Hk. unfold s_update. induction m as [|x m IH]; [reflexivity|]. cbn. destruct (eqb k' (fst x)) eqn:E1; cbn; [|destruct (eqb k (fst x)); auto].
  destruct (eqb k (fst x)) eqn:E2; [|exact IH]. exfalso. rewrite (ko_sym _ _ HK) in E1. pose proof (ko_trans _ _ HK _ _ _ E2 E1). congruence.
Qed.
Lemma find_erase_other (m : list (K * V)) k k' : eqb k k' = false -> s_find eqb (s_erase eqb m k') k = s_find eqb m k.
Proof using HK.
  intros Hk. unfold s_erase. induction m as [|x m IH]; [reflexivity|]. cbn. destruct (eqb k' (fst x)) eqn:E1; cbn; [|destruct (eqb k (fst x)); auto].
  destruct (eqb k (fst x)) eqn:E2; [|exact IH]. exfalso. rewrite (ko_sym _ _ HK) in E1. pose proof (ko_trans _ _ HK _ _ _ E2 E1). congruence.
Qed.
Lemma c_step_other (m : list (K * V)) o r m' k : c_step eqb m o r m' -> eqb k (c_key o) = false -> s_find eqb m' k = s_find eqb m k.
Proof using HK.
  intros H Hk. unfold c_step in H.
  destruct o as [k' v|k' v|k' f v|k'|k' f|k'|k'|k' p]; cbn [c_key] in *; destruct (s_find eqb m k') as [e|].
  all: try (destruct (p e)).
  all: repeat match goal with H : _ \/ _ |- _ => destruct H end.
  all: match goal with H : _ /\ _ |- _ => destruct H as [_ ->] end.
  all: try reflexivity.
  all: try (apply find_update_other; assumption).
  all: try (apply find_erase_other; assumption).
  all: cbn; rewrite Hk; reflexivity.
Qed.
Lemma w_step_other sub (m : list (K * V)) o r m' k : w_step sub (cstep eqb dc) m o r m' -> part_spares k o -> s_find eqb m' k = s_find eqb m k.
Proof using HK.
  destruct o as [o|i [f|]|i]; cbn; try contradiction.
  - intros (r0 & _ & Hst) Hk. unfold cstep in Hst. destruct dc; [eapply c_step_other; eassumption|]. destruct Hst as [Hst|Hst]; [eapply c_step_other; eassumption|].
    destruct o; try contradiction; destruct Hst as (_ & _ & ->); reflexivity.
  - intros (l & _ & _ & ->) _. reflexivity.
Qed.
Lemma expand_spares (us : list (ucall K V)) k n o : Forall (spares k) us -> expand lg us !! n = Some o -> part_spares k o.
Proof using.
  intros Hs H. apply elem_of_list_lookup_2, elem_of_list_In in H. apply in_flat_map in H. destruct H as (u & Hu & H).
  rewrite Forall_forall in Hs. specialize (Hs u (proj2 (elem_of_list_In _ _) Hu)). destruct u as [o'| |f|]; cbn in H, Hs; try contradiction.
  - destruct H as [<-|[]]. exact Hs.
  - apply in_map_iff in H. destruct H as (i & <- & Hi). exact I.
Qed.
End Still.

(** C60, in terms of one key: whatever the other threads do to other keys in the meantime, a completed for_each
    passes the element of a key that no call changes to its callback exactly once (or not at all if it is absent). *)
Theorem C60_untouched_key_seen_once : forall (K V : Type) (hash : K -> N) (eqb : K -> K -> bool) (E : env) (lg : nat) (dc : disc) (pref : bool)
    (os : list (op K V)) ps rs (uprogs : list (list (ucall K V))) s tr k,
  real_env E -> KeyOK hash eqb -> lg <= 12 -> Forall (p_op_ok E lg) os -> p_run hash eqb E lg (p_empty lg) os = Ok (ps, rs) ->
  reach (wcode hash eqb E lg dc) pref (start ps (map (expand lg) uprogs)) s tr ->
  Forall (Forall (spares eqb k)) uprogs ->
  exists m0, s_run eqb [] os rs m0 /\
    forall i us n0 (ls : nat -> list (K * V)), uprogs !! i = Some us -> call_at lg us n0 UForEach ->
      (forall q, q < num_tables lg -> In (ERes (i, n0 + q) (WSeen (ls q))) tr) ->
      List.filter (fun e => eqb k (fst e)) (flat_map ls (seq 0 (num_tables lg))) = one_or_none (s_find eqb m0 k).
Proof.
  intros K V hash eqb E lg dc pref os ps rs uprogs s tr k HE HK Hlg Ho Hrun Hreach Hsp.
  destruct (C60_whole_container_calls K V hash eqb E lg dc pref os ps rs uprogs s tr HE HK Hlg Ho Hrun Hreach) as [(m0 & L & ms & H1 & H2 & H3 & H4 & _ & H5 & _) _].
  exists m0. split; [assumption|]. intros i us n0 ls Hus Hat Hres. destruct (H5 i us n0 ls Hus Hat Hres k) as (j & Hd & ->). f_equal.
  assert (Hj : j < length L).
  { destruct Hd as (a & b & x & y & Hab & _ & _ & Hb & _). apply lookup_lt_Some in Hb. lia. }
  assert (Hst : forall j, j <= length L -> s_find eqb (ms j) k = s_find eqb m0 k); [|apply Hst; lia].
  clear j Hd Hj. induction j as [|j IH]; intros Hj; [rewrite H2; reflexivity|].
  destruct (lookup_lt_is_Some_2 L j ltac:(lia)) as ([[[i' n'] o] r] & Hl). rewrite <- IH by lia. eapply (w_step_other hash eqb HK dc); [eapply H4; exact Hl|].
  assert (Hin : In (EInv (i', n') o) tr) by (eapply (lin_called _ _ H3); apply elem_of_list_In, elem_of_list_lookup_2 with j; exact Hl).
  destruct (o_inv _ _ _ (reach_ordered _ _ _ _ _ _ Hreach) _ _ _ Hin) as (ws & Hws & Hn).
  rewrite list_lookup_fmap in Hws. destruct (uprogs !! i') as [us'|] eqn:Hu; [|discriminate]. cbn in Hws. injection Hws as <-.
  eapply expand_spares; [|exact Hn]. eapply Forall_lookup_1; [exact Hsp|exact Hu].
Qed.
Print Assumptions C60_untouched_key_seen_once.

(** ** A concrete execution *)
Definition c60_progs : list (list (ucall N N)) :=
  [[UForEach]; [UCall (CErase 4%N); UCall (CInsert 16%N 160%N); UCall (CErase 3%N)]; [UForEachM (fun v => v + 100)%N]; [UClear]].
(* the visitor is past submap 0 when key 4 of submap 0 goes, and has not reached submap 3 when key 3 goes *)
Definition c60_sched : list nat := repeat 0 14 ++ repeat 1 40 ++ repeat 0 60 ++ repeat 2 60 ++ repeat 3 60.
Fixpoint sched_skip {T O R} (code : O -> cmd T R) (pref : bool) (s : state T O R) (l : list nat) : state T O R * list (event O R) :=
  match l with
  | [] => (s, [])
  | i :: l' => match step code pref s i with
               | Some (Ok (s', ev)) => let '(s2, tr) := sched_skip code pref s' l' in (s2, ev ++ tr)
               | _ => sched_skip code pref s l'
               end
  end.
Lemma sched_skip_reach {T O R} (code : O -> cmd T R) pref s0 l : forall s tr0 s' tr, reach code pref s0 s tr0 -> sched_skip code pref s l = (s', tr) ->
  reach code pref s0 s' (tr0 ++ tr).
Proof.
  induction l as [|i l IH]; intros s tr0 s' tr Hr Hs; cbn in Hs.
  - injection Hs as <- <-. rewrite app_nil_r. assumption.
  - destruct (step code pref s i) as [[[s1 ev]| | | |]|] eqn:Hst; try (eapply IH; eassumption).
    destruct (sched_skip code pref s1 l) as [s2 tr2] eqn:Hsc. injection Hs as <- <-. rewrite app_assoc. eapply IH; [|exact Hsc]. econstructor; eassumption.
Qed.
Definition run60 {O} (code : O -> cmd (table N N) (wout N N)) (os : list (op N N)) (progs : list (list O)) (l : list nat) :=
  match p_run exp_hash N.eqb ex_env 2 (p_empty 2) os with
  | Ok (ps, _) => Some (sched_skip code false (start ps progs) l)
  | _ => None
  end.
Lemma run60_reach {O} (code : O -> cmd (table N N) (wout N N)) os progs l s tr : run60 code os progs l = Some (s, tr) ->
  exists ps rs, p_run exp_hash N.eqb ex_env 2 (p_empty 2) os = Ok (ps, rs) /\ reach code false (start ps progs) s tr.
Proof.
  unfold run60. destruct (p_run exp_hash N.eqb ex_env 2 (p_empty 2) os) as [[ps rs]| | | |]; try discriminate. intros H. injection H as H.
  exists ps, rs. split; [reflexivity|]. change tr with ([] ++ tr). eapply sched_skip_reach; [constructor|exact H].
Qed.
Definition results {O R} (tr : list (event O R)) : list (cid * R) := flat_map (fun ev => match ev with ERes id r => [(id, r)] | _ => [] end) tr.
Lemma ins_ok l : Forall (p_op_ok ex_env 2) (ins l).
Proof. apply Forall_forall. intros o Ho. apply elem_of_list_fmap in Ho. destruct Ho as (k & -> & _). exact I. Qed.

(** C60 is not vacuous: four threads; the visitor has passed submap 0 when key 4 is erased and key 16 inserted there,
    and finds key 3 of submap 3 gone; the key 5, which only for_each_m and clear concern, is seen by both visitors;
    all four calls complete. *)
Example C60_example : exists ps rs s tr,
  Forall (p_op_ok ex_env 2) (ins (nums 0 12)) /\ p_run exp_hash N.eqb ex_env 2 (p_empty 2) (ins (nums 0 12)) = Ok (ps, rs) /\
  reach (wcode exp_hash N.eqb ex_env 2 SharedMutex) false (start ps (map (expand 2) c60_progs)) s tr /\
  finished s /\
  call_at 2 [@UForEach N N] 0 UForEach /\
  In (ERes (0, 0) (WSeen [(0, 0); (4, 4); (8, 8)]%N)) tr /\ In (ERes (0, 1) (WSeen [(5, 5); (9, 9); (1, 1)]%N)) tr /\
  In (ERes (0, 2) (WSeen [(2, 2); (6, 6); (10, 10)]%N)) tr /\ In (ERes (0, 3) (WSeen [(7, 7); (11, 11)]%N)) tr /\
  In (ERes (1, 2) (WRes (CRes true None))) tr /\ In (ERes (2, 0) (WSeen [(0, 0); (16, 160); (8, 8)]%N)) tr /\ In (ERes (3, 3) WDone) tr.
Proof.
  destruct (run60 (wcode exp_hash N.eqb ex_env 2 SharedMutex) (ins (nums 0 12)) (map (expand 2) c60_progs) c60_sched) as [[s tr]|] eqn:Ht; [|vm_compute in Ht; discriminate].
  destruct (run60_reach _ _ _ _ _ _ Ht) as (ps & rs & H1 & H2). exists ps, rs, s, tr.
  split; [apply ins_ok|]. split; [assumption|]. split; [exact H2|]. vm_compute in Ht. injection Ht as <- <-.
  split; [repeat constructor|]. split; [exists [], []; auto|]. cbn. auto 60.
Qed.
(** and a key that nobody changes, with a thread that changes others *)
Example C60_untouched_example : Forall (Forall (spares N.eqb 5%N)) [[@UForEach N N]; [UCall (CErase 4%N); UCall (CInsert 16%N 160%N)]].
Proof. repeat constructor. Qed.

(** What for_each visits need not be the contents at any moment: the map holds 3 and 4; one thread erases 4 and then
    3, and the visitor sees 4 but not 3. *)
Theorem C60_for_each_snapshot_refuted : exists (os : list (op N N)) ps rs s tr (ls : nat -> list (N * N)),
  Forall (p_op_ok ex_env 2) os /\ p_run exp_hash N.eqb ex_env 2 (p_empty 2) os = Ok (ps, rs) /\
  reach (wcode exp_hash N.eqb ex_env 2 Mutex) false (start ps (map (expand 2) [[UForEach]; [UCall (CErase 4%N); UCall (CErase 3%N)]])) s tr /\
  (forall q, q < num_tables 2 -> In (ERes (0, q) (WSeen (ls q))) tr) /\
  forall m0 r1 m1 r2 m2, s_run N.eqb [] os rs m0 -> c_step N.eqb m0 (CErase 4%N) r1 m1 -> c_step N.eqb m1 (CErase 3%N) r2 m2 ->
    forall m, In m [m0; m1; m2] -> ~ Permutation (flat_map ls (seq 0 (num_tables 2))) m.
Proof.
  destruct (run60 (wcode exp_hash N.eqb ex_env 2 Mutex) (ins [3; 4]%N) (map (expand 2) [[UForEach]; [UCall (CErase 4%N); UCall (CErase 3%N)]])
    (repeat 0 7 ++ repeat 1 40 ++ repeat 0 60)) as [[s tr]|] eqn:Ht; [|vm_compute in Ht; discriminate].
  destruct (run60_reach _ _ _ _ _ _ Ht) as (ps & rs & H1 & H2).
  exists (ins [3; 4]%N), ps, rs, s, tr, (fun q => match q with O => [(4, 4)]%N | _ => [] end).
  split; [apply ins_ok|]. split; [assumption|]. split; [exact H2|]. split.
  - intros q Hq. change (num_tables 2) with 4 in Hq. vm_compute in Ht. injection Ht as <- <-. destruct q as [|[|[|[|]]]]; [..|lia]; cbn; auto 40.
  - assert (Hrs : rs = [RInserted true (3, 3)%N; RInserted true (4, 4)%N]) by (vm_compute in H1; injection H1 as _ <-; reflexivity).
    intros m0 r1 m1 r2 m2 Hs Ha Hb m Hm. rewrite Hrs in Hs. inversion Hs as [|? ? ? ma ? ? ? Hsa Hs']; subst. inversion Hs' as [|? ? ? mb ? ? ? Hsb Hs'']; subst. inversion Hs''; subst.
    cbn in Hsa. destruct Hsa as [[_ ->]|[? _]]; [|discriminate]. cbn in Hsb. destruct Hsb as [[_ ->]|[? _]]; [|discriminate].
    cbn in Ha. destruct Ha as [_ ->]. cbn in Hb. destruct Hb as [_ ->]. change (flat_map _ _) with [(4, 4)%N]. intros Hp.
    destruct Hm as [<-|[<-|[<-|[]]]]; [apply Permutation_length in Hp; discriminate| |apply Permutation_length in Hp; discriminate].
    apply Permutation_length_1 in Hp. discriminate.
Qed.
Print Assumptions C60_for_each_snapshot_refuted.

(** what thread i is about to access *)
Definition about {T O R} (s : state T O R) (i : nat) : option (nat * bool) :=
  match st_threads s !! i with
  | Some th => match th_cur th with Some (_, CWrite m _ _) => Some (m, true) | Some (_, CRead m _) => Some (m, false) | _ => None end
  | None => None
  end.
Lemma about_accesses {T O R} (s : state T O R) i m w : about s i = Some (m, w) -> accesses s i m w.
Proof.
  unfold about, accesses. destruct (st_threads s !! i) as [th|]; [|discriminate]. destruct (th_cur th) as [[o c]|] eqn:Hc; [|discriminate].
  intros H. exists th, o, c. split; [reflexivity|]. split; [assumption|]. destruct c; try discriminate; injection H as <- <-; eauto 6.
Qed.
(** size() takes no lock.  A reachable state with a data race: one thread about to insert into a submap, another
    about to read its size. *)
Theorem C60_size_race_refuted : exists (os : list (op N N)) ps rs s tr,
  Forall (p_op_ok ex_env 2) os /\ p_run exp_hash N.eqb ex_env 2 (p_empty 2) os = Ok (ps, rs) /\
  reach (scode exp_hash N.eqb ex_env 2 Mutex) false (start ps [[Some (CInsert 4%N 4%N)]; [None]]) s tr /\ race s.
Proof.
  assert (Hab : option_map (fun x => (about (fst x) 0, about (fst x) 1))
    (run60 (scode exp_hash N.eqb ex_env 2 Mutex) (ins [3%N]) [[Some (CInsert 4%N 4%N)]; [None]] ([1] ++ repeat 0 3)) = Some (Some (0, true), Some (0, false)))
    by (vm_compute; reflexivity).
  destruct (run60 (scode exp_hash N.eqb ex_env 2 Mutex) (ins [3%N]) [[Some (CInsert 4%N 4%N)]; [None]] ([1] ++ repeat 0 3)) as [[s tr]|] eqn:Ht; [|discriminate].
  destruct (run60_reach _ _ _ _ _ _ Ht) as (ps & rs & H1 & H2). exists (ins [3%N]), ps, rs, s, tr.
  split; [apply ins_ok|]. split; [assumption|]. split; [exact H2|]. cbn [option_map fst] in Hab. injection Hab as Ha Hb.
  exists 0, 1, 0, false. split; [discriminate|]. split; apply about_accesses; assumption.
Qed.
Print Assumptions C60_size_race_refuted.

(** ... and even if the reads themselves are taken to be harmless, size() may return a number that was never the
    number of elements: the map holds key 3, another thread inserts 4 and then erases 3, and size() returns 0. *)
Theorem C60_size_value_refuted : exists (os : list (op N N)) ps rs s tr,
  Forall (p_op_ok ex_env 2) os /\ p_run exp_hash N.eqb ex_env 2 (p_empty 2) os = Ok (ps, rs) /\
  reach (scode exp_hash N.eqb ex_env 2 Mutex) false (start ps [[Some (CInsert 4%N 4%N); Some (CErase 3%N)]; [None]]) s tr /\
  In (ERes (1, 0) (WSize 0)) tr /\ In (ERes (0, 0) (WRes (CRes true None))) tr /\
  forall m0 m1 r2 m2, s_run N.eqb [] os rs m0 -> c_step N.eqb m0 (CInsert 4%N 4%N) (CRes true None) m1 -> c_step N.eqb m1 (CErase 3%N) r2 m2 ->
    forall m, In m [m0; m1; m2] -> length m <> 0.
Proof.
  destruct (run60 (scode exp_hash N.eqb ex_env 2 Mutex) (ins [3%N]) [[Some (CInsert 4%N 4%N); Some (CErase 3%N)]; [None]] ([1; 1] ++ repeat 0 40 ++ repeat 1 10)) as [[s tr]|] eqn:Ht; [|vm_compute in Ht; discriminate].
  destruct (run60_reach _ _ _ _ _ _ Ht) as (ps & rs & H1 & H2). exists (ins [3%N]), ps, rs, s, tr.
  split; [apply ins_ok|]. split; [assumption|]. split; [exact H2|].
  assert (Hrs : rs = [RInserted true (3, 3)%N]) by (vm_compute in H1; injection H1 as _ <-; reflexivity).
  vm_compute in Ht. injection Ht as <- <-. split; [cbn; auto 10|]. split; [cbn; auto 10|].
  intros m0 m1 r2 m2 Hs Ha Hb m Hm. rewrite Hrs in Hs. inversion Hs as [|? ? ? ma ? ? ? Hsa Hs']; subst. inversion Hs'; subst.
  cbn in Hsa. destruct Hsa as [[_ ->]|[? _]]; [|discriminate]. cbn in Ha. destruct Ha as [[_ ->]|[? _]]; [|discriminate]. cbn in Hb. destruct Hb as [_ ->].
  destruct Hm as [<-|[<-|[<-|[]]]]; discriminate.
Qed.
Print Assumptions C60_size_value_refuted.
