(** Runs in which no constructor, assignment or allocation decides to throw: what shrink_to_fit then does to the capacity. *)
From stdpp Require Import gmap list infinite fin_map_dom.
From Coq Require Import NArith Lia ZifyBool ZifyNat ZifyN.
From Verif.Vec Require Import Model Wp Ranges Segs Ops1 Ops2 Machine Refine.
Local Open Scope nat_scope.
Local Set Default Proof Using "Type".

Section Quiet.
Context {V : Type} (tr : traits) (moved : V -> V) (dflt : V).
Notation M := (@M V).
Notation heap := (gmap nat (list (@cell V))).
(** started with nothing that decides to throw, [m] ends so; it throws only if [t] *)
Definition calm {A} (t : Prop) (m : M A) : Prop :=
  forall h rg, match m (mkW h rg []) with Ret _ w => w_orc w = [] | Thr w => t /\ w_orc w = [] | Wrong => True end.
Lemma calm_weak {A} (t : Prop) (m : M A) : calm False m -> calm t m.
Proof. intros H h rg. specialize (H h rg). destruct (m _); [exact H|destruct H as [[] _]|exact I]. Qed.
Lemma calm_ret {A} t (a : A) : calm t (ret a). Proof. intros h rg. reflexivity. Qed.
Lemma calm_skip t : calm t (@skip V). Proof. intros h rg. reflexivity. Qed.
Lemma calm_wrong {A} t : calm t (@wrong V A). Proof. intros h rg. exact I. Qed.
Lemma calm_bind {A B} t (m : M A) (k : A -> M B) : calm t m -> (forall a, calm t (k a)) -> calm t (bind m k).
Proof.
  intros Hm Hk h rg. specialize (Hm h rg). unfold bind. destruct (m _) as [a [h' rg' o]|w|]; [|exact Hm|exact I]. cbn [w_orc] in Hm. subst o. apply Hk.
Qed.
Lemma calm_guarded {A} t (m : M A) c : calm t m -> calm False c -> calm t (guarded m c).
Proof.
  intros Hm Hc h rg. specialize (Hm h rg). unfold guarded. destruct (m _) as [a w|[h' rg' o]|]; [exact Hm| |exact I]. cbn [w_orc] in Hm. destruct Hm as [Ht ->]. specialize (Hc h' rg'). destruct (c _); [auto|exact I|exact I].
Qed.
Lemma calm_may_throw t can : calm t (@may_throw V can).
Proof. intros h rg. unfold may_throw. destruct can; reflexivity. Qed.
Lemma calm_peek t l : calm t (@peek V l).
Proof. intros h rg. unfold peek. cbn [w_heap]. destruct (h !! l.1) as [cs|]; [|exact I]. destruct (cs !! l.2); [reflexivity|exact I]. Qed.
Lemma calm_poke t l c : calm t (@poke V l c).
Proof. intros h rg. unfold poke. cbn [w_heap]. destruct (h !! l.1) as [cs|]; [|exact I]. destruct (decide _); [reflexivity|exact I]. Qed.
Lemma calm_get t r : calm t (@get V r).
Proof. intros h rg. unfold get. cbn [w_regs]. destruct (rg !! r); [reflexivity|exact I]. Qed.
Lemma calm_set t r v : calm t (@set V r v).
Proof. intros h rg. unfold set. cbn [w_regs]. destruct (rg !! r); [reflexivity|exact I]. Qed.
Lemma calm_deallocate t b n : calm t (@deallocate V tr b n).
Proof. intros h rg. unfold deallocate. cbn [w_heap]. destruct (h !! b) as [cs|]; [|exact I]. destruct (_ && _); [reflexivity|exact I]. Qed.
Lemma calm_allocate n : calm True (@allocate V tr n).
Proof. intros h rg. unfold allocate. destruct (_ <? _)%N; [auto|]. reflexivity. Qed.
Lemma calm_for_up t n : forall i body, (forall k, calm t (body k)) -> calm t (@for_up V n i body).
Proof. induction n as [|n IH]; intros i body H; cbn [for_up]; [apply calm_skip|]. apply calm_bind; [apply H|]. intros _. apply IH, H. Qed.
Lemma calm_for_guard t n : forall i body c, (forall k, calm t (body k)) -> (forall k, calm False (c k)) -> calm t (@for_guard V n i body c).
Proof. induction n as [|n IH]; intros i body c H Hc; cbn [for_guard]; [apply calm_skip|]. apply calm_bind; [apply calm_guarded; auto|]. intros _. apply IH; assumption. Qed.
Lemma calm_read t l : calm t (@read V l).
Proof. unfold read. apply calm_bind; [apply calm_peek|]. intros [|x]; [apply calm_wrong|apply calm_ret]. Qed.
Lemma calm_take_arg t a mv : calm t (take_arg tr moved a mv).
Proof. destruct a; cbn [take_arg]; [apply calm_ret|]. apply calm_bind; [apply calm_read|]. intros x. apply calm_bind; [destruct mv; [apply calm_poke|apply calm_skip]|]. intros _. apply calm_ret. Qed.
Lemma calm_construct t l a mv : calm t (construct tr moved l a mv).
Proof.
  unfold construct. apply calm_bind; [apply calm_peek|]. intros c. apply calm_bind; [destruct c; [apply calm_skip|destruct (t_triv tr); [apply calm_skip|apply calm_wrong]]|]. intros _. apply calm_bind; [apply calm_may_throw|]. intros _. apply calm_bind; [apply calm_take_arg|]. intros x. apply calm_poke.
Qed.
Lemma calm_construct_default t l : calm t (construct_default tr dflt l).
Proof.
  unfold construct_default. apply calm_bind; [apply calm_peek|]. intros c. apply calm_bind; [destruct c; [apply calm_skip|destruct (t_triv tr); [apply calm_skip|apply calm_wrong]]|]. intros _. apply calm_bind; [apply calm_may_throw|]. intros _. apply calm_poke.
Qed.
Lemma calm_destroy_range t b i n : calm t (@destroy_range V tr b i n).
Proof.
  apply calm_for_up. intros k. unfold destroy. destruct (t_triv tr); [apply calm_skip|]. apply calm_bind; [apply calm_peek|]. intros [|x]; [apply calm_wrong|apply calm_poke].
Qed.
Lemma calm_memcpy t d i s j n : calm t (@memcpy V d i s j n).
Proof.
  unfold memcpy. destruct (_ && _); [apply calm_wrong|]. intros h rg. unfold memmove. cbn [w_heap]. destruct (h !! s) as [cs|]; [destruct (h !! d) as [ds|]|]; [|destruct (n =? 0); [reflexivity|exact I]|destruct (n =? 0); [reflexivity|exact I]].
  destruct (decide _); [|exact I]. destruct (decide _); [reflexivity|exact I].
Qed.
Lemma calm_relocate t r nb : calm t (relocate tr moved r nb).
Proof.
  unfold relocate. apply calm_bind; [apply calm_get|]. intros v. destruct (v_blk v) as [b|]; [|apply calm_skip]. apply calm_bind.
  - unfold relocate_move, ucopy. destruct (use_memcpy tr); [apply calm_memcpy|]. destruct (t_triv tr && t_std tr); [destruct (v_sz v =? 0); [apply calm_skip|apply calm_memcpy]|]. apply calm_for_guard; intros k; [apply calm_construct|apply calm_destroy_range].
  - intros _. unfold relocate_done. destruct (use_memcpy tr); [apply calm_skip|apply calm_destroy_range].
Qed.
Lemma calm_install t r nb n : calm t (@install V tr r nb n).
Proof. unfold install. apply calm_bind; [apply calm_get|]. intros v. apply calm_bind; [destruct (v_blk v); [apply calm_deallocate|apply calm_skip]|]. intros _. apply calm_set. Qed.
Lemma calm_reserve r n : calm True (reserve tr moved r n).
Proof.
  unfold reserve. apply calm_bind; [apply calm_get|]. intros v. destruct (n <=? v_cap v); [apply calm_skip|]. cbv zeta. apply calm_bind; [apply calm_allocate|]. intros nb. apply calm_bind; [apply calm_guarded; [apply calm_relocate|apply calm_deallocate]|]. intros _. apply calm_install.
Qed.
Lemma calm_resize r n : calm True (resize tr moved dflt r n).
Proof.
  unfold resize. apply calm_bind; [apply calm_get|]. intros v. destruct (n <=? v_sz v).
  - unfold destroy_range_e. apply calm_bind; [apply calm_get|]. intros o. apply calm_bind; [apply calm_destroy_range|]. intros _. apply calm_set.
  - apply calm_bind; [apply calm_reserve|]. intros _. unfold fill_default_e. apply calm_bind; [apply calm_get|]. intros o. apply calm_bind; [|intros _; apply calm_set]. apply calm_for_guard; intros k; [apply calm_construct_default|apply calm_destroy_range].
Qed.
(** a run of [m] in which nothing decides to throw *)
Lemma calm_run {A} (m : M A) (Q : A -> heap -> list vec -> Prop) (E : heap -> list vec -> Prop) h rg : calm False m -> wp m Q E h rg -> exists a h' rg', m (mkW h rg []) = Ret a (mkW h' rg' []) /\ Q a h' rg'.
Proof.
  intros Hc Hw. specialize (Hc h rg). specialize (Hw []). destruct (m _) as [a [h' rg' o]|w|]; [|destruct Hc as [[] _]|destruct Hw]. cbn [w_orc w_heap w_regs] in *. subst o. eauto.
Qed.

Notation St := (St (V := V) tr).
Local Set Default Proof Using "All".
(** shrink_to_fit makes the capacity equal to the size, if nothing decides to throw *)
Lemma quiet_shrink r v xs hf h rg w' : wft tr -> rg !! r = Some v -> St v xs hf h -> shrink_to_fit tr moved r (mkW h rg []) = Ret tt w' ->
  exists v', w_regs w' !! r = Some v' /\ v_sz v' = length xs /\ v_cap v' = length xs.
Proof.
  intros Hw Hr HS HE. pose proof (St_le _ _ _ _ HS) as Hle. pose proof (St_sz _ _ _ _ HS) as Hsz. pose proof (St_cap _ _ _ _ HS) as Hcap. assert (Hrl : r < length rg) by (apply lookup_lt_Some in Hr; exact Hr).
  unfold shrink_to_fit, bind at 1, get at 1 in HE. cbn [w_regs] in HE. rewrite Hr in HE. destruct (Nat.eqb_spec (v_sz v) 0) as [Hz|Hz].
  - assert (W : wp (@impl_reset0 V tr r) (fun _ h' rg' => rg' = <[r := mkV None 0 0]> rg) (fun _ _ => False) h rg) by (eapply wp_impl_reset0; [exact Hr|exact HS|reflexivity]).
    specialize (W []). rewrite HE in W. rewrite W. exists (mkV None 0 0). rewrite list_lookup_insert by assumption. cbn [v_sz v_cap]. split; [reflexivity|lia].
  - assert (Hf : fits tr (v_sz v)) by (destruct Hw as [? ?]; unfold fits; nia). cbv zeta in HE. rewrite good_cap_fits in HE by assumption. destruct (Nat.leb_spec (v_cap v) (v_sz v)) as [Hc|Hc].
    + injection HE as <-. exists v. cbn [w_regs]. split; [exact Hr|lia].
    + unfold bind at 1, catch at 1, bind at 1 in HE. unfold allocate at 1 in HE. destruct (N.ltb_spec (t_max tr) (N.of_nat (v_sz v) * t_size tr)) as [Hx|Hx]; [exfalso; destruct Hw as [? ?]; nia|].
      cbn [may_throw w_orc w_heap w_regs ret] in HE. set (nb := fresh _) in HE. assert (Hnb : h !! nb = None). { destruct (h !! nb) as [cs|] eqn:E; [|reflexivity]. exfalso. pose proof (infinite_is_fresh ((map_to_list h).*1)) as Hfr. apply Hfr. apply elem_of_list_fmap. exists (nb, cs). split; [reflexivity|]. apply elem_of_map_to_list. exact E. }
      assert (W : wp (relocate tr moved r nb) (fun _ _ rg' => rg' = rg) (fun _ _ => True) (<[nb := replicate (v_sz v) Raw]> h) rg).
      { rewrite <- (app_nil_r (replicate (v_sz v) Raw)). eapply wp_relocate; [exact Hr|exact HS|exact Hnb|apply replicate_length|apply raw_avail|reflexivity|auto]. }
      destruct (calm_run _ _ _ _ _ (calm_relocate False r nb) W) as (a & h1 & rg1 & E1 & ->). unfold ret, bind, catch in HE. rewrite E1 in HE.
      unfold install, bind, get, set in HE. cbn [w_regs] in HE. rewrite Hr in HE.
      destruct (v_blk v) as [b|] eqn:Eb; [|exfalso; destruct HS as (_ & _ & HS); rewrite Eb in HS; lia]. unfold deallocate in HE. cbn [w_heap] in HE. destruct (h1 !! b) as [cs|]; [|discriminate]. destruct (_ && _); [|discriminate]. cbn [w_regs w_heap w_orc] in HE. rewrite Hr in HE.
      injection HE as <-. cbn [w_regs]. exists (mkV (Some nb) (v_sz v) (v_sz v)). rewrite list_lookup_insert by assumption. cbn [v_sz v_cap]. auto.
Qed.
End Quiet.
