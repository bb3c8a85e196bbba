(** Table invariant; lookup, raw insertion and erasure preserve it. *)
From stdpp Require Import list.
From Coq Require Import Arith NArith ZArith Lia.
From Coq Require Import ZifyBool ZifyNat ZifyN.
From Verif.Common Require Import Res Word WordFacts.
From Verif.Swiss Require Import Group GroupSpec Model Probe Inv.
Ltac Zify.zify_post_hook ::= Z.div_mod_to_equations.
Local Open Scope nat_scope.
Local Open Scope res_scope.

Lemma H2_range h : (0 <= H2 h < 128)%Z.
Proof.
  unfold H2. change 127%N with (N.ones 7). rewrite N.land_ones.
  pose proof (N.mod_lt h (2 ^ 7) ltac:(discriminate)). change (2 ^ 7)%N with 128%N in *. lia.
Qed.
Lemma H2_sb h : sb (H2 h).
Proof. unfold sb. pose proof (H2_range h). auto. Qed.

Section Counting.
Context {A : Type}.
Definition cnt (P : A -> bool) (l : list A) : nat := length (List.filter P l).
Lemma cnt_app P l1 l2 : cnt P (l1 ++ l2) = cnt P l1 + cnt P l2.
Proof. unfold cnt. rewrite List.filter_app, app_length. reflexivity. Qed.
Lemma cnt_cons P x l : cnt P (x :: l) = (if P x then 1 else 0) + cnt P l.
Proof. unfold cnt. cbn. destruct (P x); reflexivity. Qed.
Local Arguments cnt : simpl never.
Lemma cnt_insert P (l : list A) i x y : l !! i = Some y ->
  cnt P (<[i := x]> l) + (if P y then 1 else 0) = cnt P l + (if P x then 1 else 0).
Proof.
  revert i. induction l as [|a l IH]; intros [|i] Hi; try discriminate.
  - injection Hi as ->. change (<[0:=x]> (y :: l)) with (x :: l). rewrite !cnt_cons. lia.
  - change (<[S i:=x]> (a :: l)) with (a :: <[i:=x]> l). rewrite !cnt_cons. pose proof (IH i Hi). lia.
Qed.
Lemma cnt_le P l : cnt P l <= length l.
Proof. unfold cnt. induction l as [|a l IH]; cbn; [lia|]. destruct (P a); cbn; lia. Qed.
Lemma cnt_zero P (l : list A) : cnt P l = 0 <-> forall i x, l !! i = Some x -> P x = false.
Proof.
  induction l as [|a l IH]; [split; [intros _ i x; rewrite lookup_nil; discriminate|reflexivity]|].
  rewrite cnt_cons. split.
  - intros H [|i] x Hx; cbn in Hx.
    + injection Hx as <-. destruct (P a); [lia|reflexivity].
    + apply (proj1 IH ltac:(lia) i). assumption.
  - intros H. pose proof (H 0 a eq_refl) as H0. rewrite H0.
    rewrite (proj2 IH); [reflexivity|]. intros i x Hx. apply (H (S i)). exact Hx.
Qed.
Lemma cnt_all P (l : list A) : (forall i x, l !! i = Some x -> P x = true) -> cnt P l = length l.
Proof.
  induction l as [|a l IH]; intros H; [reflexivity|]. rewrite cnt_cons, (H 0 a eq_refl), IH; [reflexivity|].
  intros i x Hx. apply (H (S i)). exact Hx.
Qed.

Definition elems (slots : list (option A)) : list A := omap id slots.
Lemma elems_insert_some (slots : list (option A)) i e : slots !! i = Some None ->
  elems (<[i := Some e]> slots) ≡ₚ e :: elems slots.
Proof.
  revert i. induction slots as [|s slots IH]; intros [|i] Hi; cbn in Hi |- *; try discriminate.
  - injection Hi as ->. reflexivity.
  - destruct s as [e'|]; cbn.
    + change (omap id (<[i:=Some e]> slots)) with (elems (<[i:=Some e]> slots)).
      rewrite IH by assumption. apply Permutation_swap.
    + apply IH. assumption.
Qed.
Lemma elems_remove (slots : list (option A)) i e : slots !! i = Some (Some e) ->
  elems slots ≡ₚ e :: elems (<[i := None]> slots).
Proof.
  intros Hi. rewrite <- (elems_insert_some (<[i:=None]> slots) i e).
  - rewrite list_insert_insert, list_insert_id by assumption. reflexivity.
  - apply list_lookup_insert. apply lookup_lt_Some in Hi. assumption.
Qed.
Lemma elems_in (slots : list (option A)) e : In e (elems slots) <-> exists i, slots !! i = Some (Some e).
Proof.
  unfold elems. rewrite <- elem_of_list_In, elem_of_list_omap. split.
  - intros (x & Hx & He). unfold id in He. subst x. apply elem_of_list_lookup in Hx. exact Hx.
  - intros (i & Hi). exists (Some e). split; [|reflexivity]. apply elem_of_list_lookup. eauto.
Qed.
Lemma elems_replicate_none n : elems (replicate n (@None A)) = [].
Proof. unfold elems. induction n; cbn; auto. Qed.
End Counting.

(** keys pairwise different *)
Local Arguments cnt : simpl never.
Section Distinct.
Context {K V : Type} (eqb : K -> K -> bool).
Fixpoint distinct (l : list (K * V)) : Prop :=
  match l with
  | [] => True
  | x :: r => (forall y, In y r -> eqb (fst x) (fst y) = false) /\ distinct r
  end.
Hypothesis eqb_sym : forall a b, eqb a b = eqb b a.
Lemma distinct_perm l l' : l ≡ₚ l' -> distinct l -> distinct l'.
Proof.
  induction 1 as [|x l l' Hp IH|x y l|l1 l2 l3 _ IH1 _ IH2]; cbn.
  - auto.
  - intros [Hx Hd]. split; [|auto]. intros z Hz. apply Hx. apply (Permutation_in _ (Permutation_sym Hp)). assumption.
  - intros [Hy [Hx Hd]]. split; [|split]; [| |assumption].
    + intros z [<-|Hz]; [|auto]. rewrite eqb_sym. apply Hy. left. reflexivity.
    + intros z Hz. apply Hy. right. assumption.
  - auto.
Qed.
Lemma distinct_index slots i j e1 e2 : distinct (elems slots) ->
  slots !! i = Some (Some e1) -> slots !! j = Some (Some e2) -> eqb (fst e1) (fst e2) = true -> i = j.
Proof.
  intros Hd Hi Hj He. destruct (Nat.eq_dec i j) as [|Hne]; [assumption|]. exfalso.
  pose proof (elems_remove slots i e1 Hi) as Hp.
  pose proof (distinct_perm _ _ Hp Hd) as [Hx _].
  assert (In e2 (elems (<[i:=None]> slots))).
  { apply elems_in. exists j. rewrite list_lookup_insert_ne by assumption. assumption. }
  rewrite Hx in He by assumption. discriminate.
Qed.
End Distinct.

(** What the lookups rely on: key equality is a partial equivalence (a key need not equal itself, as for
    floating-point numbers that are not numbers) and equal keys have equal hashes. *)
Record KeyPER {K} (hash : K -> N) (eqb : K -> K -> bool) : Prop := {
  kp_sym : forall a b, eqb a b = eqb b a;
  kp_trans : forall a b c, eqb a b = true -> eqb b c = true -> eqb a c = true;
  kp_hash : forall a b, eqb a b = true -> hash a = hash b
}.
(** What the container documentation asks of the user: key equality is an equivalence and equal keys
    have equal hashes. *)
Record KeyOK {K} (hash : K -> N) (eqb : K -> K -> bool) : Prop := {
  ko_refl : forall a, eqb a a = true;
  ko_sym : forall a b, eqb a b = eqb b a;
  ko_trans : forall a b c, eqb a b = true -> eqb b c = true -> eqb a c = true;
  ko_hash : forall a b, eqb a b = true -> hash a = hash b
}.
Lemma ko_per {K} (hash : K -> N) (eqb : K -> K -> bool) : KeyOK hash eqb -> KeyPER hash eqb.
Proof. intros [_ H1 H2 H3]. constructor; assumption. Qed.
Coercion ko_per : KeyOK >-> KeyPER.

Section TInv.
Context {K V : Type} (hash : K -> N) (eqb : K -> K -> bool) (E : env) (HG : GroupOK (e_group E)).
Context (HK : KeyPER hash eqb).
Set Default Proof Using "HG HK".
Notation eqb_sym := (kp_sym _ _ HK).
Notation eqb_trans := (kp_trans _ _ HK).
Notation hash_eqb := (kp_hash _ _ HK).
Notation g := (e_group E).
Notation W := (g_width (e_group E)).
Notation elt := (K * V)%type.
Notation table := (table K V).

Definition slot_rel (c : Z) (s : option elt) : Prop :=
  match s with
  | Some e => c = H2 (hash (fst e))
  | None => (c < 0)%Z
  end.
Definition isDel (c : Z) : bool := (c =? kDeleted)%Z.
Definition isEmp (c : Z) : bool := (c =? kEmpty)%Z.
Definition isFul (c : Z) : bool := (0 <=? c)%Z.
Definition ndel (ctrl : list Z) (cap : nat) : nat := cnt isDel (take cap ctrl).

Record tinv0 (t : table) : Prop := {
  ti_wfc : wfc E (t_ctrl t) (t_cap t);
  ti_slen : length (t_slots t) = t_cap t;
  ti_rel : forall i c s, i < t_cap t -> t_ctrl t !! i = Some c -> t_slots t !! i = Some s -> slot_rel c s;
  ti_dist : distinct eqb (elems (t_slots t));
  ti_reach : forall i e, t_slots t !! i = Some (Some e) -> reach E (t_ctrl t) (t_cap t) (hash (fst e)) i
}.

Record tinv (t : table) : Prop := {
  tv_0 : tinv0 t;
  tv_size : t_size t = length (elems (t_slots t));
  tv_room : t_size t + ndel (t_ctrl t) (t_cap t) <= CapacityToGrowth W (t_cap t);
  tv_growth : t_growth t = N.of_nat (CapacityToGrowth W (t_cap t) - t_size t - ndel (t_ctrl t) (t_cap t));
  tv_small : S (t_cap t) < W -> ndel (t_ctrl t) (t_cap t) = 0;
  tv_bytes : (needed_bytes E (N.of_nat (t_cap t)) <= e_max_bytes E)%N
}.

Definition absent (t : table) (k : K) : Prop :=
  forall e, In e (elems (t_slots t)) -> eqb k (fst e) = false.

(** ** Counting bytes *)
Lemma cnt_bytes l : Forall sb l -> cnt isFul l + cnt isDel l + cnt isEmp l = length l.
Proof using.
  induction 1 as [|c l Hc _ IH]; [reflexivity|]. rewrite !cnt_cons. cbn [length].
  unfold sb, kEmpty, kDeleted, isFul, isDel, isEmp, kEmpty, kDeleted in *.
  destruct (Z.leb_spec 0 c), (Z.eqb_spec c (-2)), (Z.eqb_spec c (-128)); lia.
Qed.
Lemma take_bytes ctrl cap : wfc E ctrl cap -> Forall sb (take cap ctrl) /\ length (take cap ctrl) = cap.
Proof.
  intros Hwf. pose proof (wfc_len _ _ _ Hwf). split; [|rewrite take_length; lia].
  apply Forall_lookup. intros i c Hi.
  assert (i < cap). { apply lookup_lt_Some in Hi. rewrite take_length in Hi. lia. }
  rewrite lookup_take in Hi by assumption.
  destruct (wfc_byte _ _ _ Hwf i) as (c' & Hc' & Hs); [assumption|]. congruence.
Qed.
Lemma cnt_rel (l : list Z) (s : list (option elt)) : length l = length s ->
  (forall i c x, l !! i = Some c -> s !! i = Some x -> slot_rel c x) ->
  cnt isFul l = length (elems s).
Proof.
  revert s. induction l as [|c l IH]; intros [|x s] Hl Hr; cbn in Hl; try discriminate; [reflexivity|].
  rewrite cnt_cons. pose proof (Hr 0 c x eq_refl eq_refl) as H0.
  rewrite (IH s); [|lia|intros i; apply (Hr (S i))].
  unfold slot_rel, isFul in *. destruct x as [e|]; cbn [elems omap list_omap id].
  - subst c. pose proof (H2_range (hash (fst e))). destruct (Z.leb_spec 0 (H2 (hash (fst e)))); [|lia]. reflexivity.
  - destruct (Z.leb_spec 0 c); [lia|]. reflexivity.
Qed.
Lemma ti_cnt_full t : tinv0 t -> cnt isFul (take (t_cap t) (t_ctrl t)) = length (elems (t_slots t)).
Proof.
  intros Ht. destruct (take_bytes _ _ (ti_wfc _ Ht)) as [_ Hl]. apply cnt_rel.
  - rewrite Hl. symmetry. apply (ti_slen _ Ht).
  - intros i c x Hi Hx.
    assert (i < t_cap t). { apply lookup_lt_Some in Hi. lia. }
    rewrite lookup_take in Hi by assumption. eapply (ti_rel _ Ht); eassumption.
Qed.
Lemma ti_count t : tinv0 t ->
  length (elems (t_slots t)) + ndel (t_ctrl t) (t_cap t) + cnt isEmp (take (t_cap t) (t_ctrl t)) = t_cap t.
Proof.
  intros Ht. destruct (take_bytes _ _ (ti_wfc _ Ht)) as [Hs Hl]. rewrite <- (ti_cnt_full t Ht).
  unfold ndel. rewrite cnt_bytes by assumption. exact Hl.
Qed.
Lemma cnt_pos_ex {A} (P : A -> bool) (l : list A) : 0 < cnt P l -> exists i x, l !! i = Some x /\ P x = true.
Proof using.
  induction l as [|a l IH]; [unfold cnt; cbn; lia|]. rewrite cnt_cons. destruct (P a) eqn:Ea; intros H.
  - exists 0, a. auto.
  - destruct (IH H) as (i & x & Hi & Hx). exists (S i), x. auto.
Qed.
Lemma ex_empty t : tinv0 t -> length (elems (t_slots t)) + ndel (t_ctrl t) (t_cap t) < t_cap t ->
  exists i, i < t_cap t /\ t_ctrl t !! i = Some kEmpty.
Proof.
  intros Ht Hlt. pose proof (ti_count t Ht).
  destruct (cnt_pos_ex isEmp (take (t_cap t) (t_ctrl t))) as (i & x & Hi & Hx); [lia|].
  assert (i < t_cap t). { apply lookup_lt_Some in Hi. rewrite take_length in Hi. lia. }
  rewrite lookup_take in Hi by assumption. exists i. split; [assumption|].
  unfold isEmp in Hx. apply Z.eqb_eq in Hx. congruence.
Qed.
Lemma ex_nonfull t : tinv0 t -> length (elems (t_slots t)) < t_cap t ->
  exists i, i < t_cap t /\ nonfull_at (t_ctrl t) i.
Proof.
  intros Ht Hlt. pose proof (ti_count t Ht).
  assert (Hor : 0 < ndel (t_ctrl t) (t_cap t) \/ 0 < cnt isEmp (take (t_cap t) (t_ctrl t))) by lia.
  destruct Hor as [Ho|Ho]; apply cnt_pos_ex in Ho; destruct Ho as (i & x & Hi & Hx);
  (assert (i < t_cap t); [apply lookup_lt_Some in Hi; rewrite take_length in Hi; lia|]);
  rewrite lookup_take in Hi by assumption; exists i; (split; [assumption|]); exists x; (split; [assumption|]);
  unfold isEmp, isDel, kEmpty, kDeleted in Hx; lia.
Qed.
Lemma all_full_not_nonfull t : tinv0 t -> length (elems (t_slots t)) = t_cap t ->
  forall i, i < t_cap t -> ~ nonfull_at (t_ctrl t) i.
Proof.
  intros Ht Hl i Hi (c & Hc & Hneg). pose proof (ti_count t Ht).
  assert (H0 : cnt isDel (take (t_cap t) (t_ctrl t)) = 0) by (unfold ndel in *; lia).
  assert (H1 : cnt isEmp (take (t_cap t) (t_ctrl t)) = 0) by lia.
  rewrite cnt_zero in H0, H1.
  assert (Hc' : take (t_cap t) (t_ctrl t) !! i = Some c) by (rewrite lookup_take by assumption; assumption).
  specialize (H0 _ _ Hc'). specialize (H1 _ _ Hc'). unfold isDel, isEmp, kDeleted, kEmpty in *.
  destruct (wfc_byte _ _ _ (ti_wfc _ Ht) i Hi) as (c' & Hc2 & Hs). rewrite Hc in Hc2. injection Hc2 as <-.
  unfold sb, kEmpty, kDeleted in Hs. lia.
Qed.

Lemma slot_at t i : tinv0 t -> i < t_cap t -> exists c s, t_ctrl t !! i = Some c /\ t_slots t !! i = Some s /\ slot_rel c s /\ sb c.
Proof.
  intros Ht Hi. destruct (wfc_byte _ _ _ (ti_wfc _ Ht) i Hi) as (c & Hc & Hs).
  destruct (lookup_lt_is_Some_2 (t_slots t) i) as [s Hsl]; [rewrite (ti_slen _ Ht); assumption|].
  exists c, s. repeat split; try assumption. eapply (ti_rel _ Ht); eassumption.
Qed.
Lemma slot_full t i c : tinv0 t -> i < t_cap t -> t_ctrl t !! i = Some c -> (0 <= c)%Z ->
  exists e, t_slots t !! i = Some (Some e) /\ c = H2 (hash (fst e)).
Proof.
  intros Ht Hi Hc H0. destruct (slot_at t i Ht Hi) as (c' & s & Hc' & Hs & Hr & _).
  rewrite Hc in Hc'. injection Hc' as <-. destruct s as [e|]; cbn in Hr; [eauto|lia].
Qed.
Lemma slot_none t i c : tinv0 t -> i < t_cap t -> t_ctrl t !! i = Some c -> (c < 0)%Z -> t_slots t !! i = Some None.
Proof.
  intros Ht Hi Hc H0. destruct (slot_at t i Ht Hi) as (c' & s & Hc' & Hs & Hr & _).
  rewrite Hc in Hc'. injection Hc' as <-. destruct s as [e|]; cbn in Hr; [|assumption].
  pose proof (H2_range (hash (fst e))). lia.
Qed.
Lemma slot_ctrl t i e : tinv0 t -> t_slots t !! i = Some (Some e) -> i < t_cap t /\ t_ctrl t !! i = Some (H2 (hash (fst e))).
Proof.
  intros Ht Hs. assert (Hi : i < t_cap t) by (rewrite <- (ti_slen _ Ht); apply lookup_lt_Some in Hs; assumption).
  split; [assumption|]. destruct (slot_at t i Ht Hi) as (c & s & Hc & Hs' & Hr & _).
  rewrite Hs in Hs'. injection Hs' as <-. cbn in Hr. congruence.
Qed.

(** ** Lookup *)
Lemma match_loop_spec t k o is : tinv0 t -> o <= t_cap t ->
  (forall d, In d is -> d < W /\ exists c, t_ctrl t !! (o + d) = Some c /\ (0 <= c)%Z) ->
  exists r, match_loop eqb t k o is = Ok r /\
    match r with
    | Some p => exists e, t_slots t !! p = Some (Some e) /\ eqb k (fst e) = true
    | None => forall d e, In d is -> t_slots t !! ((o + d) mod S (t_cap t)) = Some (Some e) -> eqb k (fst e) = false
    end.
Proof.
  intros Ht Ho. induction is as [|d is IH]; intros Hin; cbn [match_loop].
  - exists None. split; [reflexivity|]. intros d e [].
  - destruct (Hin d (or_introl eq_refl)) as (Hd & c & Hc & H0).
    rewrite probe_at_mod by apply (wfc_cap _ _ _ (ti_wfc _ Ht)).
    set (p := (o + d) mod S (t_cap t)).
    assert (Hp : p < S (t_cap t)) by (apply Nat.mod_upper_bound; lia).
    assert (Hcp : t_ctrl t !! p = Some c).
    { destruct (byte_cases E HG _ _ o d (ti_wfc _ Ht) Ho Hd) as [[_ Hb]|(_ & _ & Hb)].
      - fold p in Hb. congruence.
      - rewrite Hb in Hc. injection Hc as <-. unfold kEmpty in H0. lia. }
    assert (Hpc : p < t_cap t).
    { destruct (Nat.eq_dec p (t_cap t)) as [He|]; [|lia]. rewrite He, (wfc_sent _ _ _ (ti_wfc _ Ht)) in Hcp.
      injection Hcp as <-. unfold kSentinel in H0. lia. }
    destruct (slot_full t p c Ht Hpc Hcp H0) as (e & Hs & _).
    rewrite (load_some _ _ _ Hs). cbn [rbind of_option].
    destruct (eqb k (fst e)) eqn:Ek.
    + exists (Some p). split; [reflexivity|]. eauto.
    + destruct IH as (r & Hr & Hspec); [intros d' Hd'; apply Hin; right; assumption|].
      exists r. split; [exact Hr|]. destruct r as [p'|]; [assumption|].
      intros d' e' [<-|Hd'] He'; [|eauto]. fold p in He'. congruence.
Qed.

Lemma find_loop_ok t k i e n0 : tinv0 t -> t_slots t !! i = Some (Some e) -> eqb k (fst e) = true ->
  covers E (t_cap t) (poffh E (t_cap t) (hash k) n0) i ->
  (forall n', n' < n0 -> nempty E (t_ctrl t) (t_cap t) (poffh E (t_cap t) (hash k) n')) ->
  forall fuel n, n <= n0 -> n0 - n < fuel ->
  find_loop eqb E fuel t k (hash k) (poffh E (t_cap t) (hash k) n) (n * W) = Ok (Some i).
Proof.
  intros Ht Hs Hk Hcov Hne. destruct (slot_ctrl t i e Ht Hs) as [Hi Hci].
  pose proof (ti_wfc _ Ht) as Hwf.
  induction fuel as [|f IH]; intros n Hn Hf; [lia|]. cbn [find_loop].
  set (o := poffh E (t_cap t) (hash k) n) in *. assert (Ho : o <= t_cap t) by apply poffh_le.
  destruct (window_ok E HG _ _ _ Hwf Ho) as (w & Hw & Hl & Hv & Hb). rewrite Hw. cbn [rbind].
  destruct (match_loop_spec t k o (g_match g w (H2 (hash k))) Ht Ho) as (r & Hr & Hspec).
  { intros d Hd. destruct (gok_match_sound _ HG w _ d Hl Hv (H2_range _) Hd) as (c & Hc & H0).
    assert (Hdl : d < W) by (apply lookup_lt_Some in Hc; lia). split; [assumption|].
    exists c. rewrite <- Hb by assumption. split; assumption. }
  rewrite Hr. cbn [rbind]. destruct r as [p|].
  - destruct Hspec as (e' & He' & Hk'). f_equal. f_equal.
    eapply (distinct_index eqb eqb_sym (t_slots t) p i e' e); [apply (ti_dist _ Ht)|assumption|assumption|].
    eapply eqb_trans; [|exact Hk]. rewrite eqb_sym. exact Hk'.
  - assert (n <> n0).
    { intros ->. destruct (covers_byte E HG _ _ _ _ Hwf Ho Hcov) as (d & Hd & HdM & Hmod & Hdb).
      assert (Hin : In d (g_match g w (H2 (hash k)))).
      { apply (gok_match_complete _ HG); [assumption|assumption|apply H2_range|].
        rewrite Hb by assumption. rewrite Hdb, Hci. f_equal. f_equal. symmetry. apply hash_eqb. assumption. }
      assert (eqb k (fst e) = false) by (eapply Hspec; [exact Hin|rewrite Hmod; exact Hs]). congruence. }
    assert (Hae : g_any_empty g w = false).
    { apply (any_empty_nempty E HG _ _ _ _ Hwf Ho Hw). apply Hne. lia. }
    rewrite Hae. unfold o. rewrite (probe_next_off E _ _ _ (wfc_cap _ _ _ Hwf)). apply IH; lia.
Qed.

Lemma find_present t k i e : tinv0 t -> t_slots t !! i = Some (Some e) -> eqb k (fst e) = true ->
  find_key hash eqb E t k = Ok (Some i).
Proof.
  intros Ht Hs Hk. destruct (ti_reach _ Ht i e Hs) as (n & Hn & Hcov & Hne).
  rewrite <- (hash_eqb _ _ Hk) in Hcov, Hne.
  unfold find_key, find_fuel. rewrite (poffh_0 E _ _ (wfc_cap _ _ _ (ti_wfc _ Ht))).
  apply (find_loop_ok t k i e n Ht Hs Hk Hcov Hne (S (t_cap t)) 0); lia.
Qed.

Lemma find_loop_none t k nstar : tinv0 t -> absent t k ->
  ~ nempty E (t_ctrl t) (t_cap t) (poffh E (t_cap t) (hash k) nstar) ->
  forall fuel n, n <= nstar -> nstar - n < fuel ->
  find_loop eqb E fuel t k (hash k) (poffh E (t_cap t) (hash k) n) (n * W) = Ok None.
Proof.
  intros Ht Hk Hns. pose proof (ti_wfc _ Ht) as Hwf.
  induction fuel as [|f IH]; intros n Hn Hf; [lia|]. cbn [find_loop].
  set (o := poffh E (t_cap t) (hash k) n) in *. assert (Ho : o <= t_cap t) by apply poffh_le.
  destruct (window_ok E HG _ _ _ Hwf Ho) as (w & Hw & Hl & Hv & Hb). rewrite Hw. cbn [rbind].
  destruct (match_loop_spec t k o (g_match g w (H2 (hash k))) Ht Ho) as (r & Hr & Hspec).
  { intros d Hd. destruct (gok_match_sound _ HG w _ d Hl Hv (H2_range _) Hd) as (c & Hc & H0).
    assert (Hdl : d < W) by (apply lookup_lt_Some in Hc; lia). split; [assumption|].
    exists c. rewrite <- Hb by assumption. split; assumption. }
  rewrite Hr. cbn [rbind]. destruct r as [p|].
  - destruct Hspec as (e' & He' & Hk'). rewrite Hk in Hk'; [discriminate|]. apply elems_in. eauto.
  - destruct (g_any_empty g w) eqn:Hae; [reflexivity|].
    unfold o. rewrite (probe_next_off E _ _ _ (wfc_cap _ _ _ Hwf)).
    destruct (Nat.eq_dec n nstar) as [->|]; [|apply IH; lia].
    exfalso. apply Hns. apply (any_empty_nempty E HG _ _ _ _ Hwf Ho Hw). assumption.
Qed.

Lemma find_absent t k : tinv0 t -> absent t k ->
  (S (t_cap t) < W \/ exists i, i < t_cap t /\ t_ctrl t !! i = Some kEmpty) ->
  find_key hash eqb E t k = Ok None.
Proof.
  intros Ht Hk Hor. pose proof (ti_wfc _ Ht) as Hwf. pose proof (wfc_cap _ _ _ Hwf) as Hcap.
  unfold find_key, find_fuel. rewrite (poffh_0 E _ _ Hcap).
  assert (Hex : exists nstar, nstar <= t_cap t /\
             ~ nempty E (t_ctrl t) (t_cap t) (poffh E (t_cap t) (hash k) nstar)).
  { destruct Hor as [Hs|(i & Hi & He)].
    - exists 0. split; [lia|]. intros [H _]. lia.
    - destruct (cover_ex E HG (t_cap t) (probe_start (hash k) (t_cap t)) i Hcap) as (n & Hn & (d & Hd & HdM & Hmod) & _).
      + rewrite (poffh_0 E) by assumption. apply poffh_le.
      + lia.
      + exists n. split; [assumption|]. intros [_ Hne]. apply (Hne d Hd). unfold poffh. rewrite Hmod. assumption. }
  destruct Hex as (ns & Hns & Hnn).
  apply (find_loop_none t k ns Ht Hk Hnn (S (t_cap t)) 0); lia.
Qed.

(** ** Raw insertion into a given slot *)
Lemma nempty_mono ctrl ctrl' cap o :
  (forall j, j <= cap -> ctrl' !! j = Some kEmpty -> ctrl !! j = Some kEmpty) ->
  nempty E ctrl cap o -> nempty E ctrl' cap o.
Proof using.
  intros Hm [HW Hne]. split; [assumption|]. intros d Hd He. apply (Hne d Hd). apply Hm; [|assumption].
  pose proof (Nat.mod_upper_bound (o + d) (S cap) ltac:(lia)). lia.
Qed.
Lemma reach_mono ctrl ctrl' cap h i :
  (forall j, j <= cap -> ctrl' !! j = Some kEmpty -> ctrl !! j = Some kEmpty) ->
  reach E ctrl cap h i -> reach E ctrl' cap h i.
Proof using.
  intros Hm (n & Hn & Hc & Hne). exists n. split; [assumption|]. split; [assumption|].
  intros n' Hn'. eapply nempty_mono; [exact Hm|]. apply Hne. assumption.
Qed.

Lemma take_ctrl_insert (ctrl ctrl' : list Z) cap i h : length ctrl = length ctrl' -> cap < length ctrl -> i < cap ->
  ctrl' !! i = Some h -> (forall j, j <= cap -> j <> i -> ctrl' !! j = ctrl !! j) ->
  take cap ctrl' = <[i := h]> (take cap ctrl).
Proof using.
  intros Hl Hc Hi Hh Hoth. apply list_eq. intros j.
  destruct (Nat.lt_ge_cases j cap) as [Hj|Hj].
  - rewrite lookup_take by assumption. destruct (Nat.eq_dec j i) as [->|Hne].
    + rewrite list_lookup_insert by (rewrite take_length; lia). assumption.
    + rewrite list_lookup_insert_ne by congruence. rewrite lookup_take by assumption. apply Hoth; lia.
  - rewrite !lookup_ge_None_2; [reflexivity| |]; rewrite ?insert_length, take_length; lia.
Qed.

Lemma insert_at t p k v ctrl' : tinv0 t -> p < t_cap t -> nonfull_at (t_ctrl t) p ->
  reach E (t_ctrl t) (t_cap t) (hash k) p -> absent t k ->
  wfc E ctrl' (t_cap t) -> ctrl' !! p = Some (H2 (hash k)) ->
  (forall j, j <= t_cap t -> j <> p -> ctrl' !! j = t_ctrl t !! j) ->
  forall sz gr,
  tinv0 (mkTable ctrl' (<[p := Some (k, v)]> (t_slots t)) sz (t_cap t) gr) /\
  elems (<[p := Some (k, v)]> (t_slots t)) ≡ₚ (k, v) :: elems (t_slots t).
Proof.
  intros Ht Hp (c & Hc & Hneg) Hreach Habs Hwf' Hcp Hoth sz gr.
  assert (Hsn : t_slots t !! p = Some None) by (eapply slot_none; [eassumption|eassumption|eassumption|lia]).
  pose proof (elems_insert_some (t_slots t) p (k, v) Hsn) as Hperm. split; [|assumption].
  assert (Hmono : forall j, j <= t_cap t -> ctrl' !! j = Some kEmpty -> t_ctrl t !! j = Some kEmpty).
  { intros j Hj He. destruct (Nat.eq_dec j p) as [->|Hne].
    - rewrite Hcp in He. injection He as He. pose proof (H2_range (hash k)). unfold kEmpty in He. lia.
    - rewrite <- (Hoth j Hj Hne). assumption. }
  constructor; cbn.
  - assumption.
  - rewrite insert_length. apply (ti_slen _ Ht).
  - intros i c' s Hi Hc' Hs. destruct (Nat.eq_dec i p) as [->|Hne].
    + rewrite list_lookup_insert in Hs by (rewrite (ti_slen _ Ht); assumption).
      injection Hs as <-. cbn. congruence.
    + rewrite list_lookup_insert_ne in Hs by congruence. rewrite Hoth in Hc' by lia.
      eapply (ti_rel _ Ht); eassumption.
  - eapply (distinct_perm eqb eqb_sym); [symmetry; exact Hperm|]. cbn. split; [|apply (ti_dist _ Ht)].
    intros y Hy. apply Habs. assumption.
  - intros i e Hs. destruct (Nat.eq_dec i p) as [->|Hne].
    + rewrite list_lookup_insert in Hs by (rewrite (ti_slen _ Ht); assumption).
      injection Hs as <-. cbn. eapply reach_mono; eassumption.
    + rewrite list_lookup_insert_ne in Hs by congruence. eapply reach_mono; [exact Hmono|].
      eapply (ti_reach _ Ht); eassumption.
Qed.

Lemma construct_ok (slots : list (option elt)) p e : slots !! p = Some None -> construct slots p e = Ok (<[p := Some e]> slots).
Proof using.
  intros Hs. unfold construct. rewrite (load_some _ _ _ Hs). cbn [rbind].
  apply store_ok. apply lookup_lt_Some in Hs. assumption.
Qed.
Lemma take_slot_ok (slots : list (option elt)) p e : slots !! p = Some (Some e) -> take_slot slots p = Ok (e, <[p := None]> slots).
Proof using.
  intros Hs. unfold take_slot. rewrite (load_some _ _ _ Hs). cbn [rbind].
  rewrite store_ok; [reflexivity|]. apply lookup_lt_Some in Hs. assumption.
Qed.

(** find_first_non_full on a table with a free slot gives a slot reachable for the key. *)
Lemma ffnf_reach t h : tinv0 t -> length (elems (t_slots t)) < t_cap t ->
  exists p, find_first_non_full E (t_ctrl t) (t_cap t) h = Ok p /\ p < t_cap t /\
    nonfull_at (t_ctrl t) p /\ reach E (t_ctrl t) (t_cap t) h p.
Proof.
  intros Ht Hlt. pose proof (ti_wfc _ Ht) as Hwf.
  destruct (ffnf_ok E HG (t_ctrl t) (t_cap t) h Hwf (ex_nonfull t Ht Hlt)) as (m & p & Hr & Hm & Hp & Hnf & Hcov & Hprev).
  exists p. split; [assumption|]. split; [assumption|]. split; [assumption|].
  exists m. split; [assumption|]. split; [assumption|]. intros n' Hn'. destruct (Hprev n' Hn') as [HWM Haf].
  apply allfull_nempty; try assumption. apply poffh_le.
Qed.

(** ** Erasure *)
Lemma never_full_spec ctrl cap i wa wb : wfc E ctrl cap -> i < cap ->
  window E ctrl i = Ok wa -> window E ctrl (sub_and i W cap) = Ok wb ->
  g_any_empty g wb && g_any_empty g wa && (g_empty_tz g wa + g_empty_lz g wb <? W) = true ->
  forall o, o <= cap -> covers E cap o i -> ~ nempty E ctrl cap o.
Proof.
  intros Hwf Hi Hwa Hwb Hb o Ho (d & Hd & HdM & Hmod) [HWM Hne].
  apply andb_true_iff in Hb. destruct Hb as [Hb Htz]. apply andb_true_iff in Hb. destruct Hb as [Hbb Hba].
  apply Nat.ltb_lt in Htz.
  destruct (wfc_cap _ _ _ Hwf) as (k & Hk & HM).
  destruct (sub_and_spec i W cap k HM ltac:(lia)) as [Hblt Hbeq].
  { destruct (W_cases E HG) as [->| ->]; cbn; lia. }
  set (bf := sub_and i W cap) in *.
  destruct (window_ok E HG _ _ i Hwf ltac:(lia)) as (wa' & Hwa' & Hla & Hva & Hwab).
  rewrite Hwa in Hwa'. injection Hwa' as <-.
  destruct (window_ok E HG _ _ bf Hwf ltac:(lia)) as (wb' & Hwb' & Hlb & Hvb & Hwbb).
  rewrite Hwb in Hwb'. injection Hwb' as <-.
  destruct (gok_empty_tz _ HG wa Hla Hva Hba) as [Ha _]. destruct (gok_empty_lz _ HG wb Hlb Hvb Hbb) as (Hlz & Hbz & _).
  set (a := g_empty_tz g wa) in *. set (z := g_empty_lz g wb) in *.
  assert (Hal : a < W) by lia.
  rewrite Hwab in Ha by assumption. rewrite Hwbb in Hbz by lia.
  rewrite (byte_lt_M E HG _ cap) in Ha by (try assumption; lia).
  rewrite (byte_lt_M E HG _ cap) in Hbz by (try assumption; lia).
  rewrite (mod_wrap _ i) in Hbeq by lia.
  destruct (Nat.lt_ge_cases (d + a) W) as [Hc|Hc].
  - apply (Hne (d + a) Hc). rewrite Nat.add_assoc. rewrite <- Nat.add_mod_idemp_l by lia. rewrite Hmod. exact Ha.
  - apply (Hne (d - 1 - z)); [lia|].
    (* o + d = i, bf + W = i  modulo cap + 1 *)
    assert (He : (o + (d - 1 - z)) mod S cap = (bf + (W - 1 - z)) mod S cap); [|rewrite He; exact Hbz].
    rewrite <- Hmod in Hbeq.
    assert (G : forall x y c, (x + c) mod S cap = (y + c) mod S cap -> x mod S cap = y mod S cap).
    { clear. intros x y c H. 
      assert (G : forall u, u mod S cap = ((u + c) mod S cap + (S cap - c mod S cap)) mod S cap).
      { intros u. rewrite Nat.add_mod_idemp_l by lia.
        pose proof (Nat.mod_upper_bound c (S cap) ltac:(lia)). pose proof (Nat.div_mod c (S cap) ltac:(lia)).
        replace (u + c + (S cap - c mod S cap)) with (u + (1 + c / S cap) * S cap) by nia.
        rewrite Nat.mod_add by lia. reflexivity. }
      rewrite (G x), (G y), H. reflexivity. }
    apply (G _ _ (1 + z)).
    replace (o + (d - 1 - z) + (1 + z)) with (o + d) by lia.
    replace (bf + (W - 1 - z) + (1 + z)) with (bf + W) by lia. symmetry. assumption.
Qed.

Lemma never_full_small ctrl cap i wa wb : wfc E ctrl cap -> i < cap -> S cap < W ->
  window E ctrl i = Ok wa -> window E ctrl (sub_and i W cap) = Ok wb ->
  g_any_empty g wb && g_any_empty g wa && (g_empty_tz g wa + g_empty_lz g wb <? W) = true.
Proof.
  intros Hwf Hi Hs Hwa Hwb.
  destruct (wfc_cap _ _ _ Hwf) as (k & Hk & HM).
  destruct (sub_and_spec i W cap k HM ltac:(lia)) as [Hblt Hbeq].
  { destruct (W_cases E HG) as [->| ->]; cbn; lia. }
  set (bf := sub_and i W cap) in *.
  pose proof (cap_small E HG cap (wfc_cap _ _ _ Hwf) Hs) as H2.
  destruct (window_ok E HG _ _ i Hwf ltac:(lia)) as (wa' & Hwa' & Hla & Hva & Hwab).
  rewrite Hwa in Hwa'. injection Hwa' as <-.
  destruct (window_ok E HG _ _ bf Hwf ltac:(lia)) as (wb' & Hwb' & Hlb & Hvb & Hwbb).
  rewrite Hwb in Hwb'. injection Hwb' as <-.
  assert (Hlast : forall o, o <= cap -> ctrl !! (o + (W - 1)) = Some kEmpty).
  { intros o Ho. replace (o + (W - 1)) with (S cap + (o + (W - 1) - S cap)) by lia.
    rewrite (wfc_clone _ _ _ Hwf) by lia. destruct (Nat.ltb_spec (o + (W - 1) - S cap) cap); [lia|reflexivity]. }
  assert (Ha : wa !! (W - 1) = Some kEmpty) by (rewrite Hwab by lia; apply Hlast; lia).
  assert (Hb : wb !! (W - 1) = Some kEmpty) by (rewrite Hwbb by lia; apply Hlast; lia).
  assert (Hba : g_any_empty g wa = true) by (apply (gok_any_empty _ HG wa Hla Hva); exists (W - 1); exact Ha).
  assert (Hbb : g_any_empty g wb = true) by (apply (gok_any_empty _ HG wb Hlb Hvb); exists (W - 1); exact Hb).
  rewrite Hba, Hbb. cbn [andb]. apply Nat.ltb_lt.
  destruct (gok_empty_tz _ HG wa Hla Hva Hba) as [Htz _]. destruct (gok_empty_lz _ HG wb Hlb Hvb Hbb) as (Hlz & _ & Haf).
  assert (g_empty_tz g wa < W) by (apply lookup_lt_Some in Htz; lia).
  assert (g_empty_lz g wb = 0).
  { destruct (Nat.eq_dec (g_empty_lz g wb) 0); [assumption|]. exfalso. apply (Haf (W - 1)); [lia|exact Hb]. }
  lia.
Qed.

Lemma erase_at_ok t i e : tinv t -> t_slots t !! i = Some (Some e) ->
  exists t', erase_at E t i = Ok (e, t') /\ tinv t' /\ t_slots t' = <[i := None]> (t_slots t) /\
    t_cap t' = t_cap t /\ t_size t = S (t_size t') /\ elems (t_slots t) ≡ₚ e :: elems (t_slots t').
Proof.
  intros Hv Hs. pose proof (tv_0 _ Hv) as Ht. pose proof (ti_wfc _ Ht) as Hwf.
  destruct (slot_ctrl t i e Ht Hs) as [Hi Hci]. pose proof (elems_remove _ _ _ Hs) as Hperm.
  unfold erase_at. rewrite (take_slot_ok _ _ _ Hs). cbn [rbind].
  unfold erase_meta_only. cbn [t_ctrl t_cap t_size t_growth t_slots].
  rewrite (load_some _ _ _ Hci). cbn [rbind].
  assert (Hful : IsFull (H2 (hash (fst e))) = true).
  { unfold IsFull. pose proof (H2_range (hash (fst e))). lia. }
  rewrite Hful.
  destruct (window_ok E HG _ _ i Hwf ltac:(lia)) as (wa & Hwa & _).
  destruct (wfc_cap _ _ _ Hwf) as (k & Hk & HM).
  destruct (sub_and_spec i W (t_cap t) k HM ltac:(lia)) as [Hblt _].
  { destruct (W_cases E HG) as [->| ->]; cbn; lia. }
  destruct (window_ok E HG _ _ (sub_and i W (t_cap t)) Hwf ltac:(lia)) as (wb & Hwb & _).
  rewrite Hwa. cbn [rbind]. rewrite Hwb. cbn [rbind].
  set (nf := g_any_empty g wb && g_any_empty g wa && (g_empty_tz g wa + g_empty_lz g wb <? W)) in *.
  destruct (set_ctrl_ok E HG (t_ctrl t) (t_cap t) i (if nf then kEmpty else kDeleted) Hwf Hi) as (ctrl' & Hset & Hwf' & Hci' & Hoth & _).
  { unfold sb. destruct nf; auto. }
  rewrite Hset. cbn [rbind]. eexists. split; [reflexivity|]. cbn [t_ctrl t_cap t_size t_growth t_slots].
  pose proof (tv_size _ Hv) as Hsz. rewrite (Permutation_length Hperm) in Hsz. cbn [length] in Hsz.
  assert (Hnd : ndel ctrl' (t_cap t) = ndel (t_ctrl t) (t_cap t) + if nf then 0 else 1).
  { unfold ndel. pose proof (wfc_len _ _ _ Hwf). pose proof (wfc_len _ _ _ Hwf').
    rewrite (take_ctrl_insert (t_ctrl t) ctrl' (t_cap t) i _ ltac:(lia) ltac:(lia) Hi Hci' Hoth).
    assert (Hti : take (t_cap t) (t_ctrl t) !! i = Some (H2 (hash (fst e)))) by (rewrite lookup_take by assumption; assumption).
    pose proof (cnt_insert isDel _ i (if nf then kEmpty else kDeleted) _ Hti) as Hc.
    assert (isDel (H2 (hash (fst e))) = false) as Hd0.
    { unfold isDel, kDeleted. pose proof (H2_range (hash (fst e))). lia. }
    rewrite Hd0 in Hc. destruct nf; cbn in Hc |- *; lia. }
  pose proof (tv_room _ Hv) as Hroom. pose proof (tv_growth _ Hv) as Hgr.
  assert (Hmaxcap : (N.of_nat (CapacityToGrowth W (t_cap t)) < 2 ^ 64)%N).
  { assert (CapacityToGrowth W (t_cap t) <= t_cap t).
    { unfold CapacityToGrowth. destruct (Nat.eqb_spec W 8), (Nat.eqb_spec (t_cap t) 7); cbn [andb]; lia. }
    assert (N.of_nat (S (t_cap t)) <= 2 ^ 63)%N.
    { rewrite HM, Nat2N.inj_pow. change (N.of_nat 2) with 2%N. apply N.pow_le_mono_r; lia. }
    change (2 ^ 64)%N with (2 * 2 ^ 63)%N. lia. }
  split; [|split; [reflexivity|split; [reflexivity|split; [lia|assumption]]]].
  constructor; cbn [t_ctrl t_cap t_size t_growth t_slots].
  - constructor; cbn [t_ctrl t_cap t_size t_growth t_slots].
    + assumption.
    + rewrite insert_length. apply (ti_slen _ Ht).
    + intros j c s Hj Hc Hsl. destruct (Nat.eq_dec j i) as [->|Hne].
      * rewrite list_lookup_insert in Hsl by (rewrite (ti_slen _ Ht); assumption). injection Hsl as <-.
        cbn. rewrite Hci' in Hc. injection Hc as <-. destruct nf; unfold kEmpty, kDeleted; lia.
      * rewrite list_lookup_insert_ne in Hsl by congruence. rewrite Hoth in Hc by lia.
        eapply (ti_rel _ Ht); eassumption.
    + pose proof (distinct_perm eqb eqb_sym _ _ Hperm (ti_dist _ Ht)) as [_ Hd]. exact Hd.
    + intros j ej Hsl. assert (Hne : j <> i).
      { intros ->. rewrite list_lookup_insert in Hsl by (rewrite (ti_slen _ Ht); assumption). discriminate. }
      rewrite list_lookup_insert_ne in Hsl by congruence.
      destruct (ti_reach _ Ht j ej Hsl) as (n & Hn & Hcov & Hnem). exists n. split; [assumption|]. split; [assumption|].
      intros n' Hn'. specialize (Hnem n' Hn'). destruct nf eqn:Enf.
      * set (o := poffh E (t_cap t) (hash (fst ej)) n') in *. assert (Ho : o <= t_cap t) by apply poffh_le.
        split; [apply Hnem|]. intros d Hd He.
        destruct (Nat.eq_dec ((o + d) mod S (t_cap t)) i) as [Hoi|Hoi].
        -- eapply (never_full_spec (t_ctrl t) (t_cap t) i wa wb Hwf Hi Hwa Hwb Enf o Ho); [|exact Hnem].
           exists d. split; [assumption|]. split; [|assumption]. destruct Hnem as [HWM _]. lia.
        -- rewrite Hoth in He; [|pose proof (Nat.mod_upper_bound (o + d) (S (t_cap t)) ltac:(lia)); lia|assumption].
           destruct Hnem as [_ Hnem]. apply (Hnem d Hd). assumption.
      * eapply nempty_mono; [|exact Hnem]. intros x Hx He. destruct (Nat.eq_dec x i) as [->|Hxi].
        -- rewrite Hci' in He. injection He as He. unfold kDeleted, kEmpty in He. lia.
        -- rewrite <- (Hoth x Hx Hxi). assumption.
  - lia.
  - destruct nf; lia.
  - rewrite Hgr. unfold wadd. rewrite N.mod_small by (destruct nf; lia). destruct nf; lia.
  - intros Hsm. pose proof (never_full_small _ _ _ _ _ Hwf Hi Hsm Hwa Hwb) as Hnf. fold nf in Hnf.
    rewrite Hnf in Hnd. pose proof (tv_small _ Hv Hsm). lia.
  - apply (tv_bytes _ Hv).
Qed.

End TInv.
