(** What follows from LruSpec for every history. *)
From stdpp Require Import list.
From Coq Require Import Arith NArith Lia.
From Verif.Common Require Import Res.
From Verif.Swiss Require Import Model TableInv Resize MapSpec History.
From Verif.Cache Require Import Lru LruSpec LruProof.
Local Open Scope nat_scope.

Section LruFacts.
Context {K V : Type} (hash : K -> N) (eqb : K -> K -> bool) (lg : nat) (HK : KeyOK hash eqb).
Set Default Proof Using "HK".
Notation sub := (fun k : K => Seq.subidx lg (hash k)).
Notation part := (@part K V sub).
Notation evict := (@evict K V sub).
Notation put_new := (@put_new K V sub).
Notation l_step := (@l_step K V eqb sub).
Notation l_run := (@l_run K V eqb sub).
Notation uses := (@uses K V eqb).
Notation sets := (@sets K V eqb).
Notation used_after := (@used_after K V eqb).
Notation latest := (@latest K V eqb).
Notation s_find := (s_find eqb).
Notation s_erase := (s_erase eqb).
Notation call := (lop K V * lout V)%type.
Notation entries := (list (K * V)).

Lemma eqb_cong a b c : eqb a b = true -> eqb a c = eqb b c.
Proof.
  intros H. destruct (eqb b c) eqn:E1; [eapply (ko_trans _ _ HK); eassumption|]. destruct (eqb a c) eqn:E2; [|reflexivity].
  rewrite (ko_sym _ _ HK) in H. rewrite (ko_trans _ _ HK _ _ _ H E2) in E1. discriminate.
Qed.
Lemma eqb_cong_r a b c : eqb a b = true -> eqb c a = eqb c b.
Proof. intros H. rewrite !(ko_sym _ _ HK c). apply eqb_cong. assumption. Qed.
Lemma sub_cong a b : eqb a b = true -> sub a = sub b.
Proof. intros H. cbn beta. rewrite (ko_hash _ _ HK _ _ H). reflexivity. Qed.
Lemma uses_cong c a b : eqb a b = true -> uses c a = uses c b.
Proof. intros H. destruct c as [[] []]; try reflexivity; cbn; try (destruct v; [|reflexivity]); apply eqb_cong; assumption. Qed.
Lemma sets_cong c a b : eqb a b = true -> sets c a = sets c b.
Proof. intros H. destruct c as [[] []]; try reflexivity; cbn; try (destruct evaluated; [|reflexivity]); rewrite (eqb_cong _ _ _ H); reflexivity. Qed.

(** ** one step *)
Inductive kind (f : K -> V) (max : nat) (m : entries) (c : call) (m' : entries) : Prop :=
| k_idle : m' = m -> (forall x, uses c x = false) -> (forall x, sets c x = None) -> kind f max m c m'
| k_touch k e v : s_find m k = Some e -> (forall x, uses c x = eqb x k) -> m' = (fst e, v) :: s_erase m k ->
    (v = snd e /\ (forall x, sets c x = None)) \/ (forall x, sets c x = if eqb x k then Some v else None) -> kind f max m c m'
| k_put k v cap : s_find m k = None -> (forall x, uses c x = eqb x k) -> (forall x, sets c x = if eqb x k then Some v else None) ->
    lop_key (fst c) = Some k ->
    cap = match fst c with LCall _ => max - 1 | _ => max end -> m' = put_new cap m k v -> kind f max m c m'.
Lemma step_kind f max m o r m' : l_step f max m o r m' -> kind f max m (o, r) m'.
Proof.
  destruct o as [k|k v|k|n| |r0|k|k]; cbn [LruSpec.l_step].
  - destruct (s_find m k) as [e|] eqn:He; intros [-> ->].
    + eapply (k_touch _ _ _ _ _ k e (snd e)); [assumption|reflexivity|destruct e; reflexivity|left; auto].
    + apply k_idle; reflexivity.
  - destruct (s_find m k) as [e|] eqn:He.
    + intros [-> ->]. eapply (k_touch _ _ _ _ _ k e v); [assumption|reflexivity|reflexivity|right; reflexivity].
    + intros [[-> ->]|[-> ->]]; [|apply k_idle; reflexivity]. eapply (k_put _ _ _ _ _ k v max); try reflexivity. assumption.
  - intros [-> ->]. apply k_idle; reflexivity.
  - intros [-> ->]. apply k_idle; reflexivity.
  - intros [-> ->]. apply k_idle; reflexivity.
  - intros [[-> | ->] ->]; apply k_idle; reflexivity.
  - destruct (s_find m k) as [e|] eqn:He.
    + intros [-> ->]. eapply (k_touch _ _ _ _ _ k e (snd e)); [assumption|reflexivity|destruct e; reflexivity|left; auto].
    + intros [[-> ->]|[-> ->]]; [|apply k_idle; reflexivity]. eapply (k_put _ _ _ _ _ k (f k) (max - 1)); try reflexivity. assumption.
  - intros [-> ->]. apply k_idle; reflexivity.
Qed.

(** ** order *)
Lemma evict_in i (m : entries) e : In e (evict i m) -> In e m.
Proof using.
  induction m as [|x m IH]; [contradiction|]. cbn [LruSpec.evict]. destruct (_ && _); [intros H; right; assumption|]. intros [->|H]; [left; reflexivity|right; auto].
Qed.
Fixpoint ordered (h : list call) (m : entries) : Prop :=
  match m with
  | [] => True
  | e :: m' => (forall e', In e' m' -> used_after h (fst e') (fst e)) /\ ordered h m'
  end.
Lemma ordered_evict h i m : ordered h m -> ordered h (evict i m).
Proof using.
  induction m as [|x m IH]; [auto|]. intros [H1 H2]. cbn [LruSpec.evict]. destruct (_ && _); [assumption|]. split; [|auto].
  intros e He. apply H1. eapply evict_in. eassumption.
Qed.
Lemma distinct_evict i (m : entries) : distinct eqb m -> distinct eqb (evict i m).
Proof using.
  induction m as [|x m IH]; [auto|]. intros [H1 H2]. cbn [LruSpec.evict]. destruct (_ && _); [assumption|]. split; [|auto].
  intros e He. apply H1. eapply evict_in. eassumption.
Qed.
Lemma in_erase (m : entries) k e : In e (s_erase m k) <-> In e m /\ eqb k (fst e) = false.
Proof using. unfold MapSpec.s_erase. rewrite filter_In, negb_true_iff. reflexivity. Qed.
Lemma ordered_erase h m k : ordered h m -> ordered h (s_erase m k).
Proof using.
  induction m as [|x m IH]; [auto|]. intros [H1 H2]. cbn. destruct (negb _); [|auto]. split; [|auto]. intros e He. apply in_erase in He. apply H1, He.
Qed.
Lemma distinct_erase (m : entries) k : distinct eqb m -> distinct eqb (s_erase m k).
Proof using.
  induction m as [|x m IH]; [auto|]. intros [H1 H2]. cbn. destruct (negb _); [|auto]. split; [|auto]. intros e He. apply in_erase in He. apply H1, He.
Qed.
Lemma after_snoc h c x y : used_after h x y -> uses c x = false -> used_after (h ++ [c]) x y.
Proof using.
  intros (h1 & d & h2 & -> & H1 & H2 & H3) Hc. exists h1, d, (h2 ++ [c]). split; [rewrite <- app_assoc; reflexivity|]. split; [assumption|]. split; [assumption|].
  intros c' Hc'. apply in_app_or in Hc'. destruct Hc' as [Hc'|[<-|[]]]; auto.
Qed.
Lemma after_now h c x y : uses c y = true -> uses c x = false -> used_after (h ++ [c]) x y.
Proof using. intros H1 H2. exists h, c, []. repeat split; auto. contradiction. Qed.
Lemma ordered_snoc h c m : ordered h m -> (forall e, In e m -> uses c (fst e) = false) -> ordered (h ++ [c]) m.
Proof using.
  induction m as [|x m IH]; [auto|]. intros [H1 H2] Hu. split; [|apply IH; [assumption|]; intros e He; apply Hu; right; assumption].
  intros e He. apply after_snoc; [auto|]. apply Hu. right. assumption.
Qed.
Lemma latest_snoc h c k v : latest h k v -> sets c k = None -> latest (h ++ [c]) k v.
Proof using.
  intros (h1 & d & h2 & -> & H1 & H2) Hc. exists h1, d, (h2 ++ [c]). split; [rewrite <- app_assoc; reflexivity|]. split; [assumption|].
  intros c' Hc'. apply in_app_or in Hc'. destruct Hc' as [Hc'|[<-|[]]]; auto.
Qed.
Lemma latest_now h c k v : sets c k = Some v -> latest (h ++ [c]) k v.
Proof using. intros H. exists h, c, []. repeat split; auto. contradiction. Qed.

Record facts (h : list call) (m : entries) : Prop := {
  fa_dist : distinct eqb m;
  fa_order : ordered h m;
  fa_value : forall e, In e m -> latest h (fst e) (snd e);
  fa_used : forall e, In e m -> exists c, In c h /\ uses c (fst e) = true
}.
(* the list just before eviction *)
Lemma facts_front h m c k e' : facts h m -> eqb k (fst e') = true -> (forall x, uses c x = eqb x k) ->
  latest (h ++ [c]) (fst e') (snd e') -> (forall x, eqb x k = false -> sets c x = None) -> facts (h ++ [c]) (e' :: s_erase m k).
Proof.
  intros [H1 H2 H3 H4] Hk Hu Hv Hs.
  assert (Hne : forall e, In e (s_erase m k) -> eqb (fst e) k = false) by (intros e He; apply in_erase in He; rewrite (ko_sym _ _ HK); apply He).
  split.
  - split; [|apply distinct_erase; assumption]. intros e He. rewrite <- (eqb_cong _ _ _ Hk), (ko_sym _ _ HK). auto.
  - split; [|apply ordered_snoc; [apply ordered_erase; assumption|]; intros e He; rewrite Hu; auto].
    intros e He. apply after_now; rewrite Hu; [|auto]. rewrite (ko_sym _ _ HK). assumption.
  - intros e [<-|He]; [assumption|]. apply latest_snoc; [|apply Hs; auto]. apply H3. apply in_erase in He. apply He.
  - intros e [<-|He].
    + exists c. split; [apply in_or_app; right; left; reflexivity|]. rewrite Hu, (ko_sym _ _ HK). assumption.
    + destruct (H4 e) as (d & Hd & Hud); [apply in_erase in He; apply He|]. exists d. split; [apply in_or_app; auto|assumption].
Qed.
Lemma facts_evict h i m : facts h m -> facts h (evict i m).
Proof.
  intros [H1 H2 H3 H4]. split; [apply distinct_evict; assumption|apply ordered_evict; assumption| |]; intros e He; apply evict_in in He; auto.
Qed.
Lemma latest_cong h a b v : eqb a b = true -> latest h a v -> latest h b v.
Proof.
  intros Hab (h1 & c & h2 & -> & H1 & H2). exists h1, c, h2. split; [reflexivity|]. split; [rewrite <- (sets_cong c _ _ Hab); assumption|].
  intros c' Hc'. rewrite <- (sets_cong c' _ _ Hab). auto.
Qed.
Lemma facts_step f max h m c m' : facts h m -> kind f max m c m' -> facts (h ++ [c]) m'.
Proof.
  intros HF [-> Hu Hs|k e v He Hu -> Hs|k v cap He Hu Hs _ _ ->].
  - destruct HF as [H1 H2 H3 H4]. split; [assumption|apply ordered_snoc; auto|intros; apply latest_snoc; auto|].
    intros e He. destruct (H4 e He) as (d & Hd & Hud). exists d. split; [apply in_or_app; auto|assumption].
  - pose proof He as He2. apply s_find_some in He2. destruct He2 as [Hin Hk]. apply facts_front; [assumption|exact Hk|assumption| |].
    + cbn [fst snd]. destruct Hs as [[-> Hs]|Hs].
      * apply latest_snoc; [|auto]. apply (fa_value _ _ HF). assumption.
      * apply latest_now. rewrite Hs, (ko_sym _ _ HK), Hk. reflexivity.
    + intros x Hx. destruct Hs as [[_ Hs]|Hs]; rewrite Hs, ?Hx; reflexivity.
  - assert (Hm : s_erase m k = m) by (apply s_erase_absent; apply s_find_none; assumption).
    assert (Hf : facts (h ++ [c]) ((k, v) :: m)).
    { rewrite <- Hm at 1. apply facts_front; [assumption|apply (ko_refl _ _ HK)|assumption| |].
      - apply latest_now. rewrite Hs. cbn. rewrite (ko_refl _ _ HK). reflexivity.
      - intros x Hx. rewrite Hs, Hx. reflexivity. }
    unfold LruSpec.put_new. destruct (cap <? _); [apply facts_evict|]; assumption.
Qed.
Lemma run_facts f num max h max' m : l_run f num max [] h max' m -> facts h m.
Proof.
  intros H. remember [] as m0. induction H as [|max m0 h max1 m1 o r m2 Hrun IH Hst]; subst; [split; cbn; auto; contradiction|].
  eapply facts_step; [apply IH; reflexivity|eapply step_kind; eassumption].
Qed.

(** ** bound *)
Lemma bound_step f max m c m' i b : kind f max m c m' -> distinct eqb m -> length (part i m) <= b -> max <= b -> length (part i m') <= b.
Proof.
  intros [-> Hu Hs|k e v He Hu -> Hs|k v cap He Hu Hs _ Hcap ->] Hd Hb Hm.
  - assumption.
  - apply s_find_some in He. destruct He as [Hin Hk]. destruct (in_split _ _ Hin) as (a & c2 & ->).
    rewrite (s_erase_mid eqb) by (try assumption; eapply (distinct_mid hash eqb HK); eassumption).
    revert Hb. rewrite part_cons, !part_app, part_cons. cbn [fst]. destruct (sub (fst e) =? i); cbn [length]; rewrite !app_length; cbn [length]; lia.
  - assert (cap <= max) by (subst cap; destruct (fst c); lia). clear Hcap.
    destruct (Nat.eq_dec i (sub k)) as [->|Hne]; [|rewrite put_part_ne by assumption; assumption].
    rewrite put_part. unfold LruSpec.put_new. rewrite part_cons, Nat.eqb_refl, part_idem. cbn [length].
    destruct (Nat.ltb_spec cap (S (length (part (sub k) m)))).
    + rewrite evict_all; [|intros x [<-|Hx]; [reflexivity|apply filter_In in Hx; apply Nat.eqb_eq, Hx]].
      change (length (removelast ((k, v) :: part (sub k) m)) <= b). destruct (exists_last (l := (k, v) :: part (sub k) m)) as (l & z & Hl); [discriminate|].
      rewrite Hl, removelast_last. apply (f_equal (@length _)) in Hl. rewrite app_length in Hl. cbn [length] in Hl. lia.
    + cbn [length]. lia.
Qed.
Definition sizes_le (num b : nat) (h : list call) : Prop := forall c, In c h -> match fst c with LSetSize n => n / num <= b | _ => True end.
Lemma run_bound f num max h max' m i b : l_run f num max [] h max' m -> max <= b -> sizes_le num b h -> length (part i m) <= b /\ max' <= b.
Proof.
  intros H. remember [] as m0. induction H as [|max m0 h max1 m1 o r m2 Hrun IH Hst]; subst; intros Hm Hs; [cbn; lia|].
  destruct IH as [H1 H2]; [reflexivity|assumption|intros c Hc; apply Hs; apply in_or_app; auto|]. split.
  - eapply bound_step; [eapply step_kind; eassumption|eapply fa_dist, run_facts; eassumption|assumption|assumption].
  - specialize (Hs (o, r) ltac:(apply in_or_app; right; left; reflexivity)). destruct o; cbn in *; assumption.
Qed.
Lemma fixed_max f num max m0 h max' m : l_run f num max m0 h max' m -> fixed_size h -> max' = max.
Proof using.
  induction 1 as [|max m0 h max1 m1 o r m2 Hrun IH Hst]; [reflexivity|]. intros Hf. rewrite <- IH.
  - specialize (Hf (o, r) ltac:(apply in_or_app; right; left; reflexivity)). destruct o; cbn in *; try reflexivity. contradiction.
  - intros c Hc. apply Hf, in_or_app. auto.
Qed.

(** ** eviction *)
Lemma evict_order h i (m : entries) x y : ordered h m -> distinct eqb m -> In x m -> ~ In x (evict i m) -> In y (evict i m) -> sub (fst y) = i ->
  sub (fst x) = i /\ used_after h (fst x) (fst y).
Proof using.
  induction m as [|e m IH]; intros Ho Hd Hx Hnx Hy Hs; [contradiction|]. cbn [LruSpec.evict] in *. destruct Ho as [Ho1 Ho2]. destruct Hd as [Hd1 Hd2].
  destruct ((sub (fst e) =? i) && (length (part i m) =? 0)) eqn:Hc.
  - exfalso. apply andb_true_iff in Hc. destruct Hc as [_ Hc]. apply Nat.eqb_eq in Hc.
    assert (In y (part i m)) by (apply filter_In; split; [assumption|apply Nat.eqb_eq; assumption]). destruct (part i m); [contradiction|discriminate].
  - destruct Hx as [->|Hx]; [exfalso; apply Hnx; left; reflexivity|].
    assert (Hnx' : ~ In x (evict i m)) by (intros H; apply Hnx; right; assumption). destruct Hy as [->|Hy].
    + split; [|apply Ho1; assumption]. clear IH Ho1 Hd1 Ho2 Hd2 Hs Hc Hnx. induction m as [|e m IH]; [contradiction|]. cbn [LruSpec.evict] in Hnx'.
      destruct (_ && _) eqn:Hc.
      * destruct Hx as [->|Hx]; [|contradiction]. apply andb_true_iff in Hc. apply Nat.eqb_eq, Hc.
      * destruct Hx as [->|Hx]; [exfalso; apply Hnx'; left; reflexivity|]. apply IH; [assumption|]. intros H. apply Hnx'. right. assumption.
    + auto.
Qed.
Lemma after_cong h a a' b b' : eqb a a' = true -> eqb b b' = true -> used_after h a b -> used_after h a' b'.
Proof.
  intros Ha Hb (h1 & c & h2 & -> & H1 & H2 & H3). exists h1, c, h2. split; [reflexivity|].
  rewrite <- (uses_cong c _ _ Ha), <- (uses_cong c _ _ Hb). split; [assumption|]. split; [assumption|].
  intros c' Hc'. rewrite <- (uses_cong c' _ _ Ha). auto.
Qed.
(** an entry that disappears was, in its submap, the least recently used; it makes room for a new key *)
Lemma run_evict f num max h max1 m o r m' x y e : l_run f num max [] h max1 m -> l_step f max1 m o r m' ->
  s_find m x = Some e -> s_find m' x = None ->
  (exists k, lop_key o = Some k /\ s_find m k = None /\ sub k = sub x) /\
  (s_find m' y <> None -> sub y = sub x -> used_after (h ++ [(o, r)]) x y).
Proof.
  intros Hrun Hst Hx Hx'. pose proof (run_facts _ _ _ _ _ _ Hrun) as HF. apply step_kind in Hst.
  pose proof (facts_step _ _ _ _ _ _ HF Hst) as HF'. apply s_find_some in Hx. destruct Hx as [Hin Hex].
  destruct Hst as [-> _ _|k e0 v He _ -> _|k v cap He Hu Hs Hko Hcap ->].
  - exfalso. rewrite s_find_none in Hx'. specialize (Hx' e Hin). congruence.
  - exfalso. rewrite s_find_none in Hx'. apply s_find_some in He. destruct He as [He0 Hk]. destruct (eqb k (fst e)) eqn:Hke.
    + specialize (Hx' (fst e0, v) ltac:(left; reflexivity)). cbn in Hx'. rewrite (eqb_cong_r _ _ x Hke) in Hx' || idtac.
      rewrite <- (eqb_cong_r _ _ x Hke) in Hex. rewrite (eqb_cong_r _ _ x Hk) in Hex. congruence.
    + assert (In e (s_erase m k)) by (apply in_erase; auto). specialize (Hx' e ltac:(right; assumption)). congruence.
  - cbn [fst] in Hko. assert (Hm : s_erase m k = m) by (apply s_erase_absent; apply s_find_none; assumption).
    assert (Hf : facts (h ++ [(o, r)]) ((k, v) :: m)).
    { rewrite <- Hm at 1. apply facts_front; [assumption|apply (ko_refl _ _ HK)|assumption| |].
      - apply latest_now. rewrite Hs. cbn. rewrite (ko_refl _ _ HK). reflexivity.
      - intros z Hz. rewrite Hs, Hz. reflexivity. }
    unfold LruSpec.put_new in *. destruct (cap <? _) eqn:Hover.
    2:{ exfalso. rewrite s_find_none in Hx'. specialize (Hx' e ltac:(right; assumption)). congruence. }
    assert (Hne : ~ In e (evict (sub k) ((k, v) :: m))) by (intros H; rewrite s_find_none in Hx'; specialize (Hx' e H); congruence).
    assert (Hsub : sub (fst e) = sub k).
    { destruct (Nat.eq_dec (sub (fst e)) (sub k)) as [|Hd]; [assumption|]. exfalso. apply Hne.
      assert (Hin2 : In e (part (sub (fst e)) (evict (sub k) ((k, v) :: m)))).
      { rewrite part_evict_ne by assumption. apply filter_In. rewrite Nat.eqb_refl. split; [right; assumption|reflexivity]. }
      apply filter_In in Hin2. apply Hin2. }
    split.
    + exists k. split; [assumption|]. split; [assumption|]. rewrite <- Hsub, (sub_cong _ _ Hex). reflexivity.
    + intros Hy Hsy. destruct (s_find (evict (sub k) ((k, v) :: m)) y) as [ey|] eqn:Hey; [|congruence]. apply s_find_some in Hey. destruct Hey as [Hiny Hey].
      destruct (evict_order (h ++ [(o, r)]) (sub k) ((k, v) :: m) e ey) as [_ Hua].
      * apply (fa_order _ _ Hf).
      * apply (fa_dist _ _ Hf).
      * right. assumption.
      * assumption.
      * assumption.
      * rewrite <- (sub_cong _ _ Hey), Hsy, (sub_cong _ _ Hex). assumption.
      * eapply after_cong; [| |exact Hua]; rewrite (ko_sym _ _ HK); assumption.
Qed.

(** ** working set *)
Lemma pigeon (l : entries) : forall ks, distinct eqb l -> (forall e, In e l -> exists y, In y ks /\ eqb (fst e) y = true) -> length l <= length ks.
Proof.
  induction l as [|e l IH]; intros ks Hd H; cbn [length]; [lia|]. destruct Hd as [Hd1 Hd2]. destruct (H e ltac:(left; reflexivity)) as (y & Hy & Hey).
  apply in_split in Hy. destruct Hy as (a & b & ->). rewrite app_length. cbn [length]. enough (length l <= length (a ++ b)) by (rewrite app_length in *; lia).
  apply IH; [assumption|]. intros e' He'. destruct (H e' ltac:(right; assumption)) as (z & Hz & Hez). exists z. split; [|assumption].
  apply in_app_or in Hz. apply in_or_app. destruct Hz as [Hz|[<-|Hz]]; auto. exfalso. specialize (Hd1 _ He').
  rewrite (eqb_cong _ _ _ Hey) in Hd1. rewrite (ko_sym _ _ HK) in Hd1. congruence.
Qed.
(** k is in the list, and the entries of its submap in front of it are among [ks] *)
Definition kept (k : K) (ks : list K) (m : entries) : Prop :=
  exists a e b, m = a ++ e :: b /\ eqb k (fst e) = true /\ forall x, In x a -> sub (fst x) = sub k -> exists y, In y ks /\ eqb (fst x) y = true.
Lemma evict_keep i (m : entries) : (exists a e b, m = a ++ e :: b /\ part i b <> []) -> forall a e b, m = a ++ e :: b -> part i b <> [] -> exists b', evict i m = a ++ e :: b'.
Proof using.
  intros _. induction m as [|x m IH]; intros a e b Hm Hb; [destruct a; discriminate|]. cbn [LruSpec.evict]. destruct a as [|x' a]; cbn in Hm; injection Hm as -> Hm.
  - subst m. destruct (length (part i b) =? 0) eqn:Hl.
    + apply Nat.eqb_eq in Hl. destruct (part i b); [congruence|discriminate].
    + rewrite andb_false_r. eauto.
  - subst m. destruct (_ && _) eqn:Hc.
    + exfalso. apply andb_true_iff in Hc. destruct Hc as [_ Hc]. apply Nat.eqb_eq in Hc. rewrite part_app, app_length, part_cons in Hc.
      destruct (part i b) as [|z l]; [congruence|]. destruct (sub (fst e) =? i); cbn [length] in Hc; lia.
    + destruct (IH a e b eq_refl Hb) as (b' & ->). eauto.
Qed.
Lemma evict_ne i (a b : entries) e : sub (fst e) <> i -> exists a' b', evict i (a ++ e :: b) = a' ++ e :: b' /\ forall x, In x a' -> In x a.
Proof using.
  intros He. induction a as [|x a IH]; cbn [app LruSpec.evict].
  - destruct (Nat.eqb_spec (sub (fst e)) i); [contradiction|]. cbn [andb]. exists [], (evict i b). auto.
  - destruct (_ && _); [exists a, b; split; [reflexivity|intros y Hy; right; assumption]|]. destruct IH as (a' & b' & -> & Ha). exists (x :: a'), b'. split; [reflexivity|]. intros y [->|Hy]; [left; reflexivity|right; auto].
Qed.
Lemma evict_last i (a b : entries) e : sub (fst e) = i -> part i b = [] -> evict i (a ++ e :: b) = a ++ b.
Proof using.
  intros He Hb. induction a as [|x a IH]; cbn [app LruSpec.evict].
  - rewrite He, Nat.eqb_refl, Hb. reflexivity.
  - rewrite part_app, part_cons, He, Nat.eqb_refl, app_length. cbn [length]. rewrite Nat.add_succ_r. cbn [Nat.eqb]. rewrite andb_false_r, IH. reflexivity.
Qed.
Lemma kept_step f max m c m' k ks cap0 : kind f max m c m' -> distinct eqb m -> kept k ks m ->
  cap0 <= max -> (match fst c with LCall _ => cap0 <= max - 1 | _ => True end) ->
  length ks < cap0 -> (forall x, uses c x = true -> sub x = sub k -> eqb x k = false -> exists y, In y ks /\ eqb x y = true) -> kept k ks m'.
Proof.
  intros Hst Hd (a & e & b & -> & Hk & Ha) Hc1 Hc2 Hlen Hks.
  destruct Hst as [-> _ _|k1 e1 v He Hu -> _|k1 v cap He Hu Hs Hko Hcap ->].
  - exists a, e, b. auto.
  - pose proof He as He1. apply s_find_some in He1. destruct He1 as [Hin Hk1]. destruct (eqb k k1) eqn:Hkk.
    + exists [], (fst e1, v), (s_erase (a ++ e :: b) k1). split; [reflexivity|]. split; [|contradiction]. cbn [fst]. rewrite (eqb_cong _ _ _ Hkk). assumption.
    + assert (Hek : eqb k1 (fst e) = false).
      { destruct (eqb k1 (fst e)) eqn:H; [|reflexivity]. rewrite <- (eqb_cong_r _ _ _ Hk), (ko_sym _ _ HK) in H. congruence. }
      exists ((fst e1, v) :: s_erase a k1), e, (s_erase b k1). split.
      { cbn [app]. f_equal. unfold MapSpec.s_erase. rewrite List.filter_app. cbn. rewrite Hek. reflexivity. }
      split; [assumption|]. intros x [<-|Hx] Hsx.
      * cbn [fst] in *. destruct (Hks k1) as (y & Hy & Hky).
        -- rewrite Hu. apply (ko_refl _ _ HK).
        -- rewrite (sub_cong _ _ Hk1). assumption.
        -- rewrite (ko_sym _ _ HK). assumption.
        -- exists y. split; [assumption|]. rewrite <- (eqb_cong _ _ _ Hk1). assumption.
      * apply in_erase in Hx. apply Ha; [apply Hx|assumption].
  - assert (Hcap' : cap0 <= cap) by (subst cap; destruct (fst c); assumption || lia). clear Hc2 Hcap.
    unfold LruSpec.put_new. destruct (cap <? _) eqn:Hover.
    2:{ exists ((k1, v) :: a), e, b. split; [reflexivity|]. split; [assumption|]. intros x [<-|Hx] Hsx; [|auto]. cbn [fst] in *. apply Hks; [rewrite Hu; apply (ko_refl _ _ HK)|assumption|].
        destruct (eqb k1 k) eqn:H; [|reflexivity]. exfalso. rewrite s_find_none in He. specialize (He e ltac:(apply in_or_app; right; left; reflexivity)). rewrite (eqb_cong _ _ _ H) in He. congruence. }
    assert (Hk1 : eqb k1 k = false).
    { destruct (eqb k1 k) eqn:H; [|reflexivity]. exfalso. rewrite s_find_none in He. specialize (He e ltac:(apply in_or_app; right; left; reflexivity)). rewrite (eqb_cong _ _ _ H) in He. congruence. }
    assert (Hfront : forall x, In x ((k1, v) :: a) -> sub (fst x) = sub k -> exists y, In y ks /\ eqb (fst x) y = true).
    { intros x [<-|Hx] Hsx; [|auto]. cbn [fst] in *. apply Hks; [rewrite Hu; apply (ko_refl _ _ HK)|assumption|assumption]. }
    destruct (Nat.eq_dec (sub (fst e)) (sub k1)) as [Hs1|Hs1].
    + destruct (part (sub k1) b) as [|z l] eqn:Hb.
      * exfalso. apply Nat.ltb_lt in Hover. change ((k1, v) :: a ++ e :: b) with (((k1, v) :: a) ++ e :: b) in Hover.
        rewrite part_app, (part_cons _ _ _ e b) in Hover. rewrite Hs1, Nat.eqb_refl, Hb, app_length in Hover. cbn [length] in Hover.
        enough (length (part (sub k1) ((k1, v) :: a)) <= length ks) by lia. apply pigeon.
        -- assert (Hdd : distinct eqb ((k1, v) :: a)).
           { split; [intros x Hx|]. 
             - rewrite s_find_none in He. apply He. apply in_or_app. auto.
             - eapply distinct_app_l. exact Hd. }
           clear -Hdd. induction ((k1, v) :: a) as [|x l IH]; [exact I|]. destruct Hdd as [H1 H2]. rewrite part_cons. destruct (_ =? _); [|auto].
           split; [|auto]. intros y Hy. apply filter_In in Hy. apply H1, Hy.
        -- intros x Hx. apply filter_In in Hx. destruct Hx as [Hx Hsx]. apply Nat.eqb_eq in Hsx. apply Hfront; [assumption|]. rewrite Hsx, (sub_cong _ _ Hk). symmetry. assumption.
      * destruct (evict_keep (sub k1) (((k1, v) :: a) ++ e :: b) ltac:(exists ((k1, v) :: a), e, b; rewrite Hb; split; [reflexivity|discriminate]) ((k1, v) :: a) e b eq_refl) as (b' & Hev); [rewrite Hb; discriminate|].
        cbn [app] in Hev. rewrite Hev. exists ((k1, v) :: a), e, b'. auto.
    + destruct (evict_ne (sub k1) ((k1, v) :: a) b e Hs1) as (a' & b' & Hev & Ha'). cbn [app] in Hev. rewrite Hev. exists a', e, b'. split; [reflexivity|]. split; [assumption|]. auto.
Qed.
Lemma kept_now f max m c m' k ks cap0 : kind f max m c m' -> uses c k = true ->
  cap0 <= max -> (match fst c with LCall _ => cap0 <= max - 1 | _ => True end) -> length ks < cap0 -> kept k ks m'.
Proof.
  intros Hst Huk Hc1 Hc2 Hlen. destruct Hst as [-> Hu _|k1 e1 v He Hu -> _|k1 v cap He Hu Hs Hko Hcap ->].
  - rewrite Hu in Huk. discriminate.
  - rewrite Hu in Huk. apply s_find_some in He. destruct He as [_ Hk1]. exists [], (fst e1, v), (s_erase m k1). split; [reflexivity|]. split; [|contradiction].
    cbn [fst]. rewrite (eqb_cong _ _ _ Huk). assumption.
  - rewrite Hu in Huk. assert (Hcap' : cap0 <= cap) by (subst cap; destruct (fst c); assumption || lia).
    unfold LruSpec.put_new. destruct (Nat.ltb_spec cap (length (part (sub k1) ((k1, v) :: m)))) as [Hov|Hov].
    + cbn [LruSpec.evict]. rewrite part_cons in Hov. cbn [fst] in *. rewrite Nat.eqb_refl in *. cbn [length andb] in *.
      destruct (Nat.eqb_spec (length (part (sub k1) m)) 0); [lia|]. exists [], (k1, v), (evict (sub k1) m). split; [reflexivity|]. split; [assumption|contradiction].
    + exists [], (k1, v), m. split; [reflexivity|]. split; [assumption|contradiction].
Qed.
Lemma run_split f num max m h1 h2 max2 m2 : l_run f num max m (h1 ++ h2) max2 m2 -> exists max1 m1, l_run f num max m h1 max1 m1 /\ l_run f num max1 m1 h2 max2 m2.
Proof using.
  intros H. remember (h1 ++ h2) as h eqn:Hh. revert h2 Hh. induction H as [|max m h max1 m1 o r m2 Hrun IH Hst]; intros h2 Hh.
  - symmetry in Hh. apply app_eq_nil in Hh. destruct Hh as [-> ->]. exists max, m. split; constructor.
  - assert (Hc : h2 = [] \/ exists h3 c, h2 = h3 ++ [c]).
    { destruct h2 as [|c0 h2']; [auto|right]. destruct (exists_last (l := c0 :: h2')) as (h3 & c & Hl); [discriminate|]. eauto. }
    destruct Hc as [->|(h3 & c & ->)].
    + rewrite app_nil_r in Hh. subst h1. exists (l_max num max1 o), m2. split; [econstructor; eassumption|constructor].
    + rewrite app_assoc in Hh. apply app_inj_tail in Hh. destruct Hh as [-> <-]. destruct (IH h3 eq_refl) as (max3 & m3 & H1 & H2).
      exists max3, m3. split; [assumption|]. econstructor; eassumption.
Qed.
Lemma kept_find k ks m : kept k ks m -> s_find m k <> None.
Proof using.
  intros (a & e & b & -> & Hk & _) H. rewrite s_find_none in H. specialize (H e ltac:(apply in_or_app; right; left; reflexivity)). congruence.
Qed.
Lemma run_step_inv f num max m c max' m' : l_run f num max m [c] max' m' -> l_step f max m (fst c) (snd c) m' /\ max' = l_max num max (fst c).
Proof using.
  intros H. remember [c] as h eqn:Hh. destruct H as [|max m h max1 m1 o r m2 Hrun Hst]; [discriminate|].
  change [c] with ([] ++ [c]) in Hh. apply app_inj_tail in Hh. destruct Hh as [-> <-]. remember [] as h0 eqn:Hh0. destruct Hrun; [auto|]. destruct h; discriminate.
Qed.
Lemma run_kept_from f num max m h max' m' k ks cap0 : l_run f num max m h max' m' -> distinct eqb m -> fixed_size h -> kept k ks m -> cap0 <= max ->
  (forall d, In d h -> match fst d with LCall _ => cap0 <= max - 1 | _ => True end) -> length ks < cap0 ->
  (forall d x, In d h -> uses d x = true -> sub x = sub k -> eqb x k = false -> exists y, In y ks /\ eqb x y = true) -> kept k ks m' /\ distinct eqb m'.
Proof.
  intros H Hd. induction H as [|max m h max1 m1 o r m2 Hrun IH Hst]; intros Hf Hk Hc Hcall Hlen Hks; [auto|].
  assert (Hf' : fixed_size h) by (intros d Hd'; apply Hf, in_or_app; auto).
  destruct (IH Hd Hf' Hk Hc) as [Hk1 Hd1]; [intros d Hd'; apply Hcall, in_or_app; auto|assumption|intros d x Hd'; apply Hks, in_or_app; auto|].
  pose proof (fixed_max _ _ _ _ _ _ _ Hrun Hf') as ->. apply step_kind in Hst.
  assert (Hin : In (o, r) (h ++ [(o, r)])) by (apply in_or_app; right; left; reflexivity). split.
  - eapply kept_step; [eassumption|eassumption|eassumption|eassumption|apply (Hcall _ Hin)|assumption|intros x; apply (Hks _ x Hin)].
  - destruct Hst as [-> _ _|k1 e1 v He Hu -> _|k1 v cap He Hu Hs Hko Hcap ->]; [assumption| |].
    + apply s_find_some in He. destruct He as [_ Hk1']. split; [|apply distinct_erase; assumption]. intros e He. apply in_erase in He. cbn [fst]. rewrite <- (eqb_cong _ _ _ Hk1'). apply He.
    + assert (Hdd : distinct eqb ((k1, v) :: m1)) by (split; [intros e Hin'; rewrite s_find_none in He; apply He; assumption|assumption]).
      unfold LruSpec.put_new. destruct (cap <? _); [apply distinct_evict|]; assumption.
Qed.
(** a key used at c, and fewer than [cap0] other keys of its submap used since *)
Lemma run_kept f num max h1 c h2 max' m' k ks cap0 : l_run f num max [] (h1 ++ c :: h2) max' m' -> fixed_size (c :: h2) -> uses c k = true ->
  cap0 <= max' -> (forall d, In d (c :: h2) -> match fst d with LCall _ => cap0 <= max' - 1 | _ => True end) -> length ks < cap0 ->
  (forall d x, In d h2 -> uses d x = true -> sub x = sub k -> eqb x k = false -> exists y, In y ks /\ eqb x y = true) -> s_find m' k <> None.
Proof.
  intros Hrun Hf Huk Hc Hcall Hlen Hks. apply run_split in Hrun. destruct Hrun as (max1 & m1 & Hrun1 & Hrun2).
  pose proof (fixed_max _ _ _ _ _ _ _ Hrun2 Hf) as ->. change (c :: h2) with ([c] ++ h2) in Hrun2. apply run_split in Hrun2. destruct Hrun2 as (max2 & m2 & Hst & Hrun3).
  apply run_step_inv in Hst. destruct Hst as [Hst Hmax2]. apply step_kind in Hst. destruct c as [o r]. cbn [fst snd] in *.
  assert (max2 = max1) as ->. { rewrite Hmax2. specialize (Hf (o, r) ltac:(left; reflexivity)). destruct o; try reflexivity. contradiction. }
  eapply kept_find. eapply (run_kept_from f num max1 m2 h2 _ m' k ks cap0); try eassumption.
  - eapply fa_dist. eapply facts_step; [eapply run_facts; eassumption|eassumption].
  - intros d Hd. apply Hf. right. assumption.
  - eapply kept_now; [eassumption|assumption|eassumption|apply (Hcall (o, r)); left; reflexivity|assumption].
  - intros d Hd. apply Hcall. right. assumption.
Qed.
End LruFacts.
