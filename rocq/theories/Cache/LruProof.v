(** One call on one submap does what LruSpec says. *)
From stdpp Require Import list list_numbers.
From Coq Require Import Arith NArith ZArith Lia.
From Verif.Common Require Import Res Word.
From Verif.Swiss Require Import Group GroupSpec Model Probe Inv TableInv Resize Ops MapSpec History.
From Verif.Par Require Import Seq SeqProof Conc ConcMap ConcMapProof.
From Verif.Cache Require Import Lru LruSpec.
Local Open Scope nat_scope.
Local Open Scope res_scope.

Section LruProof.
Context {K V : Type} (hash : K -> N) (eqb : K -> K -> bool) (E : env) (lg : nat).
Context (HE : env_ok E) (HK : KeyOK hash eqb).
Set Default Proof Using "HE HK".
Notation node := (nid * (K * V))%type.
Notation dlist := (list node).
Notation table := (table K nid).
Notation shard := (shard K V).
Notation good := (good hash eqb E).
Notation sub := (fun k : K => Seq.subidx lg (hash k)).
Notation part := (@part K V sub).
Notation evict := (@evict K V sub).
Notation put_new := (@put_new K V sub).

(** ** lists *)
Definition ref (n : node) : K * nid := (fst (snd n), fst n).
Lemma node_at_in (l : dlist) n : NoDup (map fst l) -> In n l -> node_at l (fst n) = Ok (snd n).
Proof using.
  induction l as [|x l IH]; [contradiction|]. cbn [map]. rewrite NoDup_cons. intros [Hx Hd] [->|Hin]; cbn [node_at].
  - rewrite bool_decide_eq_true_2; reflexivity.
  - rewrite bool_decide_eq_false_2; [auto|]. intros He. apply Hx. rewrite He. apply elem_of_list_In, in_map. assumption.
Qed.
Lemma without_absent (l : dlist) i : ~ In i (map fst l) -> without l i = l.
Proof using.
  intros H. unfold without. induction l as [|x l IH]; [reflexivity|]. cbn in *. rewrite bool_decide_eq_false_2 by tauto. cbn. rewrite IH by tauto. reflexivity.
Qed.
(** the node of an iterator, in the middle of its list *)
Lemma split_at (l : dlist) n : NoDup (map fst l) -> In n l -> exists a b, l = a ++ n :: b /\ without l (fst n) = a ++ b /\
  ~ In (fst n) (map fst a) /\ ~ In (fst n) (map fst b).
Proof using.
  intros Hd Hin. apply in_split in Hin. destruct Hin as (a & b & ->). exists a, b. split; [reflexivity|].
  rewrite map_app in Hd. cbn [map] in Hd. apply NoDup_app in Hd. destruct Hd as (_ & Ha & Hb). rewrite NoDup_cons in Hb. destruct Hb as [Hb _].
  assert (H1 : ~ In (fst n) (map fst a)). { intros H. apply elem_of_list_In in H. apply (Ha _ H). left. }
  assert (H2 : ~ In (fst n) (map fst b)). { intros H. apply elem_of_list_In in H. contradiction. }
  split; [|auto]. unfold without. rewrite List.filter_app. cbn. rewrite bool_decide_eq_true_2 by reflexivity. cbn.
  change (without a (fst n) ++ without b (fst n) = a ++ b). rewrite !without_absent by assumption. reflexivity.
Qed.
Lemma s_erase_mid (a b : list (K * V)) e k : eqb k (fst e) = true -> (forall x, In x (a ++ b) -> eqb k (fst x) = false) ->
  s_erase eqb (a ++ e :: b) k = a ++ b.
Proof using.
  intros He Hab. unfold s_erase. rewrite List.filter_app. cbn. rewrite He. cbn.
  rewrite <- List.filter_app. induction (a ++ b) as [|x l IH]; [reflexivity|]. cbn. rewrite (Hab x) by (left; reflexivity). cbn. rewrite IH; [reflexivity|].
  intros y Hy. apply Hab. right. assumption.
Qed.
Lemma s_find_mid (a b : list (K * V)) e k : eqb k (fst e) = true -> (forall x, In x (a ++ b) -> eqb k (fst x) = false) ->
  s_find eqb (a ++ e :: b) k = Some e.
Proof using.
  intros He Hab. rewrite s_find_app. rewrite (proj2 (s_find_none eqb a k)); [|intros x Hx; apply Hab; apply in_or_app; auto]. cbn. rewrite He. reflexivity.
Qed.

(** ** invariant of a submap *)
Record sinv (i : nat) (s : shard) : Prop := {
  si_good : good (s_tab s);
  si_refs : pe (s_tab s) ≡ₚ map ref (s_list s);
  si_nodup : NoDup (map fst (s_list s));
  si_ids : forall n, In n (s_list s) -> fst (fst n) = s_own s /\ snd (fst n) < s_next s;
  si_sub : forall n, In n (s_list s) -> sub (fst (snd n)) = i
}.
Definition vals (s : shard) : list (K * V) := map snd (s_list s).

Lemma keys_distinct i s : sinv i s -> distinct eqb (vals s).
Proof.
  intros [Hg Hr _ _ _]. pose proof (good_dist hash eqb E _ Hg) as Hd.
  assert (Hd2 : distinct eqb (map ref (s_list s))).
  { eapply (distinct_perm eqb (ko_sym _ _ HK)); [exact Hr|exact Hd]. }
  unfold vals. revert Hd2. generalize (s_list s). clear. intros l. induction l as [|x l IH]; intros H; [exact I|].
  cbn in *. destruct H as [H1 H2]. split; [|auto]. intros y Hy.
  apply in_map_iff in Hy. destruct Hy as (z & <- & Hz). apply (H1 (ref z)). apply in_map. assumption.
Qed.
Lemma distinct_mid (a b : list (K * V)) e k : distinct eqb (a ++ e :: b) -> eqb k (fst e) = true -> forall x, In x (a ++ b) -> eqb k (fst x) = false.
Proof using HK.
  intros Hd He x Hx.
  assert (Hd2 : distinct eqb (e :: a ++ b)). { eapply (distinct_perm eqb (ko_sym _ _ HK)); [|exact Hd]. symmetry. apply Permutation_middle. }
  eapply (distinct_rest hash eqb HK); eassumption.
Qed.
Lemma find_cases i s k : sinv i s -> exists r, find_key hash eqb E (s_tab s) k = Ok r /\
  match r with
  | None => s_find eqb (vals s) k = None
  | Some p => exists a n b, deref (s_tab s) p = Ok (ref n) /\ s_list s = a ++ n :: b /\ eqb k (fst (snd n)) = true /\
      (forall x, In x (map snd a ++ map snd b) -> eqb k (fst x) = false)
  end.
Proof.
  intros Hi. destruct (find_spec hash eqb E HE HK (s_tab s) k (si_good _ _ Hi)) as (r & Hf & Hr). exists r. split; [assumption|]. destruct r as [p|].
  - destruct Hr as (e & Hd & Hs). apply s_find_some in Hs. destruct Hs as [Hin Hk]. rewrite (si_refs _ _ Hi) in Hin.
    apply in_map_iff in Hin. destruct Hin as (n & <- & Hn). destruct (in_split _ _ Hn) as (a & b & Hl). exists a, n, b.
    split; [assumption|]. split; [assumption|]. split; [exact Hk|]. pose proof (keys_distinct _ _ Hi) as Hdist. unfold vals in Hdist.
    rewrite Hl, map_app in Hdist. cbn [map] in Hdist. eapply distinct_mid; eassumption.
  - apply s_find_none. intros e He. unfold vals in He. apply in_map_iff in He. destruct He as (n & <- & Hn).
    rewrite s_find_none in Hr. apply (Hr (ref n)). rewrite (si_refs _ _ Hi). apply in_map. assumption.
Qed.
Lemma vals_find s a n b k : s_list s = a ++ n :: b -> eqb k (fst (snd n)) = true -> (forall x, In x (map snd a ++ map snd b) -> eqb k (fst x) = false) ->
  s_find eqb (vals s) k = Some (snd n) /\ s_erase eqb (vals s) k = map snd a ++ map snd b.
Proof using.
  intros Hl Hk Hx. unfold vals. rewrite Hl, map_app. cbn [map]. split; [apply s_find_mid|apply s_erase_mid]; assumption.
Qed.
Lemma front_inv i s a n b l : sinv i s -> s_list s = a ++ n :: b -> map ref l ≡ₚ map ref (s_list s) -> map fst l ≡ₚ map fst (s_list s) -> sinv i (with_list s l).
Proof using.
  intros Hi Hl Hp Hp2. destruct Hi as [Hg Hr Hnd Hid Hsub]. split; cbn.
  - assumption.
  - rewrite Hr. symmetry. assumption.
  - rewrite Hp2. assumption.
  - intros x Hx. assert (Hin : In (fst x) (map fst (s_list s))) by (rewrite <- Hp2; apply in_map; assumption).
    apply in_map_iff in Hin. destruct Hin as (y & <- & Hy). auto.
  - intros x Hx. assert (Hin : In (ref x) (map ref (s_list s))) by (rewrite <- Hp; apply in_map; assumption).
    apply in_map_iff in Hin. destruct Hin as (y & Hxy & Hy). unfold ref in Hxy. injection Hxy as <- _. auto.
Qed.
Lemma splice_ok i s a n b : sinv i s -> s_list s = a ++ n :: b ->
  node_at (s_list s) (fst n) = Ok (snd n) /\ splice_front (s_list s) (fst n) = Ok (n :: a ++ b) /\ sinv i (with_list s (n :: a ++ b)).
Proof using.
  intros Hi Hl. assert (Hn : In n (s_list s)) by (rewrite Hl; apply in_or_app; right; left; reflexivity).
  pose proof (node_at_in _ _ (si_nodup _ _ Hi) Hn) as Hat. split; [assumption|].
  destruct (split_at _ _ (si_nodup _ _ Hi) Hn) as (a' & b' & Hl' & Hw & Ha' & Hb').
  assert (Hab : a' ++ b' = a ++ b).
  { rewrite <- Hw, Hl. unfold without. rewrite List.filter_app. cbn. rewrite bool_decide_eq_true_2 by reflexivity. cbn.
    pose proof (si_nodup _ _ Hi) as Hnd. rewrite Hl, map_app in Hnd. cbn [map] in Hnd. apply NoDup_app in Hnd. destruct Hnd as (_ & Hx & Hy).
    rewrite NoDup_cons in Hy. destruct Hy as [Hy _]. change (without a (fst n) ++ without b (fst n) = a ++ b).
    rewrite !without_absent; [reflexivity| |]; rewrite <- elem_of_list_In; [assumption|]. intros H. apply (Hx _ H). left. }
  split.
  - unfold splice_front. rewrite Hat. cbn [rbind]. rewrite Hw, Hab. destruct n. reflexivity.
  - eapply front_inv; [exact Hi|exact Hl| |]; rewrite Hl; rewrite <- Permutation_middle; reflexivity.
Qed.

Lemma get_ok i s k : sinv i s -> exists s' v, lru_get hash eqb E s k = Ok (s', v) /\ sinv i s' /\
  match s_find eqb (vals s) k with
  | Some e => v = Some (snd e) /\ vals s' = e :: s_erase eqb (vals s) k
  | None => v = None /\ vals s' = vals s
  end.
Proof.
  intros Hi. destruct (find_cases _ _ k Hi) as (r & Hf & Hr). unfold lru_get. rewrite Hf. cbn [rbind]. destruct r as [p|].
  - destruct Hr as (a & n & b & Hd & Hl & Hk & Hx). destruct (vals_find _ _ _ _ _ Hl Hk Hx) as [-> ->].
    destruct (splice_ok _ _ _ _ _ Hi Hl) as (Hat & Hsp & Hi'). rewrite Hd. cbn [rbind ref snd]. rewrite Hat. cbn [rbind]. rewrite Hsp. cbn [rbind].
    eexists _, _. split; [reflexivity|]. split; [assumption|]. split; [reflexivity|]. unfold vals. cbn [with_list s_list map]. rewrite map_app. reflexivity.
  - rewrite Hr. eexists _, _. split; [reflexivity|]. auto.
Qed.
Lemma exists_ok i s k : sinv i s -> lru_exists hash eqb E s k = Ok (match s_find eqb (vals s) k with Some _ => true | None => false end).
Proof.
  intros Hi. destruct (find_cases _ _ k Hi) as (r & Hf & Hr). unfold lru_exists. rewrite Hf. cbn [rbind]. destruct r as [p|].
  - destruct Hr as (a & n & b & Hd & Hl & Hk & Hx). destruct (vals_find _ _ _ _ _ Hl Hk Hx) as [-> _]. reflexivity.
  - rewrite Hr. reflexivity.
Qed.
Lemma contains_ok i s k : sinv i s -> ml_contains hash eqb E s k = Ok (option_map snd (s_find eqb (vals s) k)).
Proof.
  intros Hi. destruct (find_cases _ _ k Hi) as (r & Hf & Hr). unfold ml_contains. rewrite Hf. cbn [rbind]. destruct r as [p|].
  - destruct Hr as (a & n & b & Hd & Hl & Hk & Hx). destruct (vals_find _ _ _ _ _ Hl Hk Hx) as [-> _].
    destruct (splice_ok _ _ _ _ _ Hi Hl) as (Hat & _ & _). rewrite Hd. cbn [rbind ref snd]. rewrite Hat. reflexivity.
  - rewrite Hr. reflexivity.
Qed.

(** ** a new key *)
Lemma table_add (t : table) k v : good t -> find_key hash eqb E t k = Ok None -> s_find eqb (pe t) k = None ->
  prepare_insert hash E t (hash k) = BadAlloc \/
  exists t1 p t2 t3, prepare_insert hash E t (hash k) = Ok (t1, p) /\ construct_at p (k, v) t1 = Ok t2 /\ publish_at E p (hash k) t2 = Ok t3 /\
    good t3 /\ pe t3 ≡ₚ (k, v) :: pe t.
Proof.
  intros Hg Hf Hs.
  destruct (exec_ok hash eqb E HE HK t (pe t) (OEmplace k v) (R_pe _ _ _ _ Hg) I) as (t' & r & a' & He & Hst & [Hg' Hp'] & _).
  cbn [s_step] in Hst. rewrite Hs in Hst. cbn [exec] in He. unfold emplace in He. rewrite Hf in He. cbn [rbind] in He.
  destruct (prepare_insert hash E t (hash k)) as [[t1 p]| | | |] eqn:Hpi; cbn [rbind catch] in He; try discriminate; [right|left; reflexivity].
  unfold finish_insert in He. destruct (construct (t_slots t1) p (k, v)) as [sl| | | |] eqn:Hc; cbn [rbind catch] in He; try discriminate.
  - destruct (set_ctrl E (t_ctrl t1) (t_cap t1) p (H2 (hash (fst (k, v))))) as [ct| | | |] eqn:Hsc; cbn [rbind catch] in He; try discriminate.
    + exists t1, p. unfold construct_at. rewrite Hc. eexists _, _. split; [reflexivity|]. split; [reflexivity|].
      unfold publish_at. cbn [t_ctrl t_slots t_size t_cap t_growth fst rbind] in *. rewrite Hsc. split; [reflexivity|].
      destruct (deref _ p) as [e| | | |] eqn:Hd; cbn [rbind catch] in He; try discriminate.
      * injection He as <- <-. split; [assumption|]. destruct Hst as [[_ ->]|[? _]]; [exact Hp'|discriminate].
      * injection He as <- <-. exfalso. unfold deref, load, of_option in Hd. repeat (let X := fresh in destruct (_ !! _) as [[X|]|]; cbn in Hd; try discriminate).
    + exfalso. unfold set_ctrl, store in Hsc. destruct (p <? t_cap t1); [|discriminate]. destruct (p <? length (t_ctrl t1)); cbn in Hsc; [|discriminate].
      match type of Hsc with (if ?b then _ else _) = _ => destruct b; discriminate end.
  - exfalso. unfold construct, load, of_option, store in Hc. destruct (t_slots t1 !! p) as [[x|]|]; cbn in Hc; try discriminate.
    all: try match type of Hc with (if ?b then _ else _) = _ => destruct b; discriminate end.
Qed.
Lemma table_erase (t : table) k : good t -> exists b t', erase_key hash eqb E t k = Ok (b, t') /\ good t' /\ pe t' ≡ₚ s_erase eqb (pe t) k.
Proof.
  intros Hg. destruct (exec_ok hash eqb E HE HK t (pe t) (OErase k) (R_pe _ _ _ _ Hg) I) as (t' & r & a' & He & Hst & [Hg' Hp'] & _).
  cbn [s_step] in Hst. destruct Hst as [-> ->]. cbn [exec] in He. destruct (erase_key hash eqb E t k) as [[b t2]| | | |]; cbn [rbind] in He; try discriminate.
  injection He as <- _. eauto 10.
Qed.

Lemma part_all i (m : list (K * V)) : (forall e, In e m -> sub (fst e) = i) -> part i m = m.
Proof using.
  intros H. induction m as [|e m IH]; [reflexivity|]. cbn. rewrite (H e) by (left; reflexivity). rewrite Nat.eqb_refl. f_equal. apply IH.
  intros x Hx. apply H. right. assumption.
Qed.
Lemma evict_all i (m : list (K * V)) : (forall e, In e m -> sub (fst e) = i) -> evict i m = removelast m.
Proof using.
  induction m as [|e m IH]; intros H; [reflexivity|]. cbn [LruSpec.evict removelast]. rewrite (H e) by (left; reflexivity). rewrite Nat.eqb_refl. cbn [andb].
  assert (Hm : forall x, In x m -> sub (fst x) = i) by (intros x Hx; apply H; right; assumption).
  rewrite part_all by assumption. destruct m as [|x m]; [reflexivity|]. cbn [length Nat.eqb]. rewrite IH by assumption. reflexivity.
Qed.

Lemma add_ok i s k v over cap : sinv i s -> sub k = i -> find_key hash eqb E (s_tab s) k = Ok None -> s_find eqb (vals s) k = None ->
  (forall n, over (S n) = (cap <? S n)) ->
  add_new hash eqb E over s k v = BadAlloc \/ exists s', add_new hash eqb E over s k v = Ok s' /\ sinv i s' /\ vals s' = put_new cap (vals s) k v.
Proof.
  intros Hi Hk Hf Hs Hov. unfold add_new.
  assert (Hs' : s_find eqb (pe (s_tab s)) k = None).
  { apply s_find_none. intros e He. rewrite (si_refs _ _ Hi) in He. apply in_map_iff in He. destruct He as (n & <- & Hn). cbn [ref fst].
    rewrite s_find_none in Hs. apply (Hs (snd n)). apply in_map. assumption. }
  destruct (table_add (s_tab s) k (s_own s, s_next s) (si_good _ _ Hi) Hf Hs') as [->|(t1 & p & t2 & t3 & -> & Hc & Hp & Hg3 & Hpe)]; [left; reflexivity|right].
  cbn [rbind]. rewrite Hc. cbn [rbind length]. set (nd := (((s_own s, s_next s) : nid), (k, v)) : node).
  assert (Hfresh : ~ In (s_own s, s_next s) (map fst (s_list s))).
  { intros H. apply in_map_iff in H. destruct H as (n & Hn & Hin). destruct (si_ids _ _ Hi n Hin) as [_ Hlt]. rewrite Hn in Hlt. cbn in Hlt. lia. }
  assert (Hsubs : forall n, In n (nd :: s_list s) -> sub (fst (snd n)) = i).
  { intros n [<-|Hn]; [assumption|apply (si_sub _ _ Hi); assumption]. }
  assert (Hids : forall n, In n (nd :: s_list s) -> fst (fst n) = s_own s /\ snd (fst n) < S (s_next s)).
  { intros n [<-|Hn]; [cbn; lia|]. destruct (si_ids _ _ Hi n Hn). split; [assumption|apply Nat.lt_lt_succ_r; assumption]. }
  assert (Hnd : NoDup (map fst (nd :: s_list s))).
  { cbn [map]. apply NoDup_cons. split; [rewrite elem_of_list_In; exact Hfresh|apply (si_nodup _ _ Hi)]. }
  assert (Href : pe t3 ≡ₚ map ref (nd :: s_list s)).
  { rewrite Hpe, (si_refs _ _ Hi). reflexivity. }
  assert (Hput : put_new cap (vals s) k v = if cap <? S (length (s_list s)) then removelast (map snd (nd :: s_list s)) else map snd (nd :: s_list s)).
  { unfold LruSpec.put_new. change ((k, v) :: vals s) with (map snd (nd :: s_list s)).
    assert (Hall : forall e, In e (map snd (nd :: s_list s)) -> sub (fst e) = sub k).
    { intros e He. apply in_map_iff in He. destruct He as (n & <- & Hn). rewrite Hk. auto. }
    rewrite part_all, evict_all by assumption. rewrite map_length. reflexivity. }
  rewrite Hov. fold nd. destruct (cap <? S (length (s_list s))) eqn:Hcap.
  - unfold pop_back.
    destruct (exists_last (l := nd :: s_list s)) as (l' & z & Hl'); [discriminate|]. rewrite Hl' in *. rewrite last_snoc, removelast_last. cbn [rbind].
    rewrite Hp. cbn [rbind]. destruct (table_erase t3 (fst (snd z)) Hg3) as (b & t4 & -> & Hg4 & Hp4). cbn [rbind].
    eexists. split; [reflexivity|]. split.
    + rewrite map_app in Hnd. cbn [map] in Hnd. split; cbn [s_tab s_list s_own s_next].
      * assumption.
      * rewrite Hp4, (s_erase_perm eqb _ _ _ Href). rewrite map_app. cbn [map].
        assert (Hd : distinct eqb (map ref l' ++ [ref z])).
        { eapply (distinct_perm eqb (ko_sym _ _ HK)); [|exact (good_dist hash eqb E _ Hg3)]. change (pe t3 ≡ₚ map ref l' ++ [ref z]). rewrite Href, map_app. reflexivity. }
        assert (Hrest : forall x, In x (map ref l') -> eqb (fst (snd z)) (fst x) = false).
        { intros x Hx. eapply (distinct_rest hash eqb HK (ref z) (map ref l')); [|apply (ko_refl _ _ HK)|exact Hx].
          eapply (distinct_perm eqb (ko_sym _ _ HK)); [|exact Hd]. rewrite Permutation_app_comm. reflexivity. }
        unfold s_erase. rewrite List.filter_app. cbn. rewrite (ko_refl _ _ HK). cbn. rewrite app_nil_r.
        change (s_erase eqb (map ref l') (fst (snd z)) ≡ₚ map ref l'). rewrite s_erase_absent by assumption. reflexivity.
      * apply NoDup_app in Hnd. apply Hnd.
      * intros n Hn. apply Hids. apply in_or_app. auto.
      * intros n Hn. apply Hsubs. apply in_or_app. auto.
    + unfold vals at 1. cbn [s_list]. rewrite Hput, map_app. cbn [map]. rewrite removelast_last. reflexivity.
  - cbn [rbind]. rewrite Hp. cbn [rbind]. eexists. split; [reflexivity|]. split; [split; assumption|]. rewrite Hput. reflexivity.
Qed.

Lemma set_node_ok i s a n b v : sinv i s -> s_list s = a ++ n :: b ->
  let n' := (fst n, (fst (snd n), v)) in
  set_node (s_list s) (fst n) v = Ok (a ++ n' :: b) /\ sinv i (with_list s (a ++ n' :: b)).
Proof using.
  intros Hi Hl n'. destruct (splice_ok _ _ _ _ _ Hi Hl) as (Hat & _ & _). unfold set_node. rewrite Hat. cbn [rbind].
  pose proof (si_nodup _ _ Hi) as Hnd. rewrite Hl, map_app in Hnd. cbn [map] in Hnd. apply NoDup_app in Hnd. destruct Hnd as (_ & Hx & Hy).
  rewrite NoDup_cons in Hy. destruct Hy as [Hy _].
  assert (Hid : forall l : dlist, ~ fst n ∈ map fst l -> map (fun x : node => if bool_decide (fst x = fst n) then (fst n, (fst (snd x), v)) else x) l = l).
  { clear. induction l as [|x l IH]; intros H; [reflexivity|]. cbn [map] in *. rewrite elem_of_cons in H. rewrite bool_decide_eq_false_2 by naive_solver. rewrite IH by tauto. reflexivity. }
  split.
  - rewrite Hl, map_app. cbn [map]. rewrite bool_decide_eq_true_2 by reflexivity. rewrite !Hid; [reflexivity|assumption|]. intros H. apply (Hx _ H). left.
  - eapply front_inv; [exact Hi|exact Hl| |]; rewrite Hl, !map_app; reflexivity.
Qed.
Lemma insert_ok i max s k v : sinv i s -> sub k = i ->
  match s_find eqb (vals s) k with
  | Some e => exists s', lru_insert hash eqb E max s k v = Ok s' /\ sinv i s' /\ vals s' = (fst e, v) :: s_erase eqb (vals s) k
  | None => lru_insert hash eqb E max s k v = BadAlloc \/
      exists s', lru_insert hash eqb E max s k v = Ok s' /\ sinv i s' /\ vals s' = put_new max (vals s) k v
  end.
Proof.
  intros Hi Hsk. destruct (find_cases _ _ k Hi) as (r & Hf & Hr). unfold lru_insert. rewrite Hf. cbn [rbind]. destruct r as [p|].
  - destruct Hr as (a & n & b & Hd & Hl & Hk & Hx). destruct (vals_find _ _ _ _ _ Hl Hk Hx) as [-> ->].
    rewrite Hd. cbn [rbind ref snd]. destruct (set_node_ok _ _ _ _ _ v Hi Hl) as [-> Hi1]. cbn [rbind].
    destruct (splice_ok i _ a (fst n, (fst (snd n), v)) b Hi1 eq_refl) as (_ & Hsp & Hi2). cbn [with_list s_list fst] in Hsp. rewrite Hsp. cbn [rbind].
    eexists. split; [reflexivity|]. split; [exact Hi2|]. unfold vals. cbn [with_list s_list map]. rewrite map_app. reflexivity.
  - rewrite Hr. apply add_ok; auto.
Qed.
Lemma call_ok i f max s k : sinv i s -> sub k = i ->
  match s_find eqb (vals s) k with
  | Some e => exists s', ml_call hash eqb E f max s k = Ok (s', (snd e, false)) /\ sinv i s' /\ vals s' = e :: s_erase eqb (vals s) k
  | None => ml_call hash eqb E f max s k = BadAlloc \/
      exists s', ml_call hash eqb E f max s k = Ok (s', (f k, true)) /\ sinv i s' /\ vals s' = put_new (max - 1) (vals s) k (f k)
  end.
Proof.
  intros Hi Hsk. destruct (find_cases _ _ k Hi) as (r & Hf & Hr). unfold ml_call. rewrite Hf. cbn [rbind]. destruct r as [p|].
  - destruct Hr as (a & n & b & Hd & Hl & Hk & Hx). destruct (vals_find _ _ _ _ _ Hl Hk Hx) as [-> ->].
    destruct (splice_ok _ _ _ _ _ Hi Hl) as (Hat & Hsp & Hi'). rewrite Hd. cbn [rbind ref snd]. rewrite Hat. cbn [rbind]. rewrite Hsp. cbn [rbind].
    eexists. split; [reflexivity|]. split; [assumption|]. unfold vals. cbn [with_list s_list map]. rewrite map_app. reflexivity.
  - rewrite Hr. destruct (add_ok i s k (f k) (fun n => max <=? n) (max - 1) Hi Hsk Hf Hr) as [->|(s' & -> & Hi' & Hv)].
    + intros n. destruct (Nat.leb_spec max (S n)), (Nat.ltb_spec (max - 1) (S n)); try reflexivity; lia.
    + left. reflexivity.
    + right. cbn [rbind]. eauto.
Qed.

Notation l_step := (@l_step K V eqb sub).
Lemma shard_exec_ok f max i s o k : sinv i s -> lop_key o = Some k -> sub k = i ->
  exists s' r, shard_exec hash eqb E f max s o = Ok (s', r) /\ sinv i s' /\ l_step f max (vals s) o r (vals s').
Proof.
  intros Hi Ho Hk. destruct o as [k'|k' v|k'|n| |r0|k'|k']; try discriminate; injection Ho as ->; cbn [shard_exec LruSpec.l_step].
  - destruct (get_ok _ _ k Hi) as (s' & v & -> & Hi' & Hv). cbn [rbind]. eexists _, _. split; [reflexivity|]. split; [assumption|].
    destruct (s_find eqb (vals s) k) as [e|]; destruct Hv as [-> ->]; auto.
  - pose proof (insert_ok i max s k v Hi Hk) as H. destruct (s_find eqb (vals s) k) as [e|].
    + destruct H as (s' & -> & Hi' & Hv). cbn [rbind]. eexists _, _. split; [reflexivity|]. auto.
    + destruct H as [->|(s' & -> & Hi' & Hv)]; cbn [rbind]; eexists _, _; (split; [reflexivity|]); auto.
  - rewrite (exists_ok _ _ k Hi). cbn [rbind]. eexists _, _. split; [reflexivity|]. auto.
  - pose proof (call_ok i f max s k Hi Hk) as H. destruct (s_find eqb (vals s) k) as [e|].
    + destruct H as (s' & -> & Hi' & Hv). cbn [rbind]. eexists _, _. split; [reflexivity|]. auto.
    + destruct H as [->|(s' & -> & Hi' & Hv)]; cbn [rbind]; eexists _, _; (split; [reflexivity|]); auto.
  - rewrite (contains_ok _ _ k Hi). cbn [rbind]. eexists _, _. split; [reflexivity|]. auto.
Qed.

(** ** from submaps to one list *)
Lemma part_app i (a b : list (K * V)) : part i (a ++ b) = part i a ++ part i b.
Proof using. apply List.filter_app. Qed.
Lemma part_cons i (e : K * V) m : part i (e :: m) = if sub (fst e) =? i then e :: part i m else part i m.
Proof using. reflexivity. Qed.
Lemma part_evict i (m : list (K * V)) : part i (evict i m) = removelast (part i m).
Proof using.
  induction m as [|e m IH]; [reflexivity|]. cbn [LruSpec.evict]. rewrite part_cons. destruct (sub (fst e) =? i) eqn:He; cbn [andb].
  - destruct (length (part i m) =? 0) eqn:Hl.
    + apply Nat.eqb_eq in Hl. destruct (part i m); [reflexivity|discriminate].
    + rewrite part_cons, He, IH. destruct (part i m); [discriminate|reflexivity].
  - rewrite part_cons, He. assumption.
Qed.
Lemma part_evict_ne i j (m : list (K * V)) : j <> i -> part j (evict i m) = part j m.
Proof using.
  intros Hj. induction m as [|e m IH]; [reflexivity|]. cbn [LruSpec.evict]. destruct ((sub (fst e) =? i) && _) eqn:He.
  - apply andb_true_iff in He. destruct He as [He _]. apply Nat.eqb_eq in He. rewrite part_cons, He. destruct (Nat.eqb_spec i j); [congruence|reflexivity].
  - rewrite !part_cons, IH. reflexivity.
Qed.
Lemma find_part i m k : sub k = i -> s_find eqb (part i m) k = s_find eqb m k.
Proof using HK.
  intros Hk. induction m as [|e m IH]; [reflexivity|]. rewrite part_cons. cbn [s_find]. destruct (eqb k (fst e)) eqn:He.
  - rewrite <- (ko_hash _ _ HK _ _ He), Hk, Nat.eqb_refl. cbn [s_find]. rewrite He. reflexivity.
  - destruct (sub (fst e) =? i); [cbn [s_find]; rewrite He|]; assumption.
Qed.
Lemma erase_part i (m : list (K * V)) k : part i (s_erase eqb m k) = s_erase eqb (part i m) k.
Proof using.
  unfold LruSpec.part, s_erase. induction m as [|e m IH]; [reflexivity|]. cbn. destruct (negb _) eqn:H1; cbn; destruct (sub (fst e) =? i) eqn:H2; cbn; rewrite ?H1, IH; reflexivity.
Qed.
Lemma erase_part_ne i j (m : list (K * V)) k : sub k = i -> j <> i -> part j (s_erase eqb m k) = part j m.
Proof using HK.
  intros Hk Hj. rewrite erase_part. apply s_erase_absent. intros e He. apply filter_In in He. destruct He as [_ He]. apply Nat.eqb_eq in He.
  destruct (eqb k (fst e)) eqn:Hke; [|reflexivity]. rewrite <- (ko_hash _ _ HK _ _ Hke) in He. congruence.
Qed.
Lemma part_idem i (m : list (K * V)) : part i (part i m) = part i m.
Proof using. apply part_all. intros e He. apply filter_In in He. apply Nat.eqb_eq, He. Qed.
Lemma put_part cap m k v : part (sub k) (put_new cap m k v) = put_new cap (part (sub k) m) k v.
Proof using.
  unfold LruSpec.put_new. rewrite !part_cons, Nat.eqb_refl, part_idem. cbn [length]. destruct (cap <? _).
  - rewrite part_evict, part_cons, Nat.eqb_refl. rewrite evict_all; [reflexivity|]. intros e [<-|He]; [reflexivity|]. apply filter_In in He. apply Nat.eqb_eq, He.
  - rewrite part_cons, Nat.eqb_refl. reflexivity.
Qed.
Lemma put_part_ne cap m k v j : j <> sub k -> part j (put_new cap m k v) = part j m.
Proof using.
  intros Hj. unfold LruSpec.put_new. destruct (cap <? _); [rewrite part_evict_ne by assumption|]; rewrite part_cons; cbn [fst]; destruct (Nat.eqb_spec (sub k) j); congruence.
Qed.
Lemma frame f max m o r a' k i : lop_key o = Some k -> sub k = i -> l_step f max (part i m) o r a' ->
  exists m', l_step f max m o r m' /\ part i m' = a' /\ forall j, j <> i -> part j m' = part j m.
Proof using HK.
  intros Ho Hk Hst. assert (Hmv : forall e : K * V, eqb k (fst e) = true -> sub (fst e) = i).
  { intros e He. rewrite <- (ko_hash _ _ HK _ _ He). assumption. }
  assert (Htouch : forall (e e' : K * V), s_find eqb m k = Some e -> fst e' = fst e -> part i (e' :: s_erase eqb m k) = e' :: s_erase eqb (part i m) k /\
            forall j, j <> i -> part j (e' :: s_erase eqb m k) = part j m).
  { intros e e' He He'. apply s_find_some in He. destruct He as [_ He]. rewrite part_cons, He', (Hmv e He), Nat.eqb_refl, erase_part. split; [reflexivity|].
    intros j Hj. rewrite part_cons, He', (Hmv e He), (erase_part_ne i) by assumption. destruct (Nat.eqb_spec i j); congruence. }
  destruct o as [k'|k' v|k'|n| |r0|k'|k']; try discriminate; injection Ho as ->; cbn [LruSpec.l_step] in *; rewrite find_part in Hst by assumption; destruct (s_find eqb m k) as [e|] eqn:He.
  all: try (destruct Hst as [Hst|Hst]).
  all: destruct Hst as [-> ->].
  all: first [ exists m; split; [solve [auto]|split; [reflexivity|reflexivity]]
             | exists (e :: s_erase eqb m k); split; [solve [auto]|apply (Htouch e); reflexivity]
             | exists ((fst e, v) :: s_erase eqb m k); split; [solve [auto]|apply (Htouch e); reflexivity]
             | subst i; eexists; split; [left; split; reflexivity|split; [apply put_part|intros j; apply put_part_ne]] ].
Qed.
End LruProof.
