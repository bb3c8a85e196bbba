(** Lookups with a key of another type find the values that are equivalent to it. *)
From stdpp Require Import list.
From Coq Require Import Arith Lia ZifyBool ZifyNat Sorting.Sorted.
From Verif.Common Require Import Res.
From Verif.BTree Require Import Tree TreeFacts Balance Search Spec SearchFacts Ops Iter OpsFacts SpecFacts Refine Refine2 Hetero.
Local Open Scope nat_scope.

(** what a transparent comparator has to do with q: the keys before q come first, the keys after q last, none is both *)
Record ranged {K Q} (lt : K -> K -> bool) (lo : K -> Q -> bool) (hi : Q -> K -> bool) (q : Q) : Prop := {
  rg_lo x y : lt y x = false -> lo y q = true -> lo x q = true;
  rg_hi x y : lt y x = false -> hi q x = true -> hi q y = true;
  rg_dis x : lo x q = true -> hi q x = false;
}.

Section Facts.
Context {V K Q : Type} (key : V -> K) (lt : K -> K -> bool) (lo : K -> Q -> bool) (hi : Q -> K -> bool) (kN : nat) (m : mode) (q : Q).
Context (Hlt : swo lt) (HkN : 3 <= kN) (Hq : ranged lt lo hi q).
Implicit Types (b : btree V) (t : node V) (f : frame V) (ps : list (frame V)) (v : V) (c d : cursor V) (l L R : list V) (ks : list K).
Notation wf := (wf kN). Notation shape := (shape kN).
Notation srt := (sorted key lt (multi m)).
Notation repr := (repr key lt kN m).
Notation skeys ks := (sorted (fun x : K => x) lt (multi m) ks).
Notation before_q x := (lo x q). Notation after_q x := (hi q x).
Definition match_q (x : K) : bool := negb (lo x q) && negb (hi q x).

(** ** the searches of a node *)
(* the keys before i are not after q and the keys from i on are not before q: between the two bounds *)
Definition weak_point ks i : Prop :=
  i <= length ks /\ (forall j x, j < i -> ks !! j = Some x -> after_q x = false) /\ (forall j x, i <= j -> ks !! j = Some x -> before_q x = false).
Lemma mono_lo : mono lt (multi m) (fun x => lo x q).
Proof. intros x y Hr Hp. apply (rel_weak lt Hlt) in Hr. eapply (rg_lo _ _ _ _ Hq); eauto. Qed.
Lemma mono_hi : mono lt (multi m) (fun x => negb (hi q x)).
Proof. intros x y Hr Hp. apply (rel_weak lt Hlt) in Hr. destruct (hi q x) eqn:E; [|done]. rewrite (rg_hi _ _ _ _ Hq x y) in Hp; auto. Qed.
Lemma hlinear_bool_spec comp ks : mono lt (multi m) (fun x => comp x q) -> skeys ks -> partition_point (fun x => comp x q) ks (hlinear_bool comp q ks).
Proof.
  intros Hm Hs. induction Hs as [|x ks Hs IH Hf]; cbn.
  - split; [done|]. split; intros; [lia|]. done.
  - destruct (comp x q) eqn:E.
    + destruct IH as (H1 & H2 & H3). split; [cbn; lia|]. split; intros [|j] y Hj Hy; cbn in *; simplify_eq; auto; try lia.
      * apply (H2 j); auto. lia.
      * apply (H3 j); auto. lia.
    + split; [cbn; lia|]. split; intros j y Hj Hy; [lia|]. destruct j as [|j]; cbn in *; [by simplify_eq|].
      rewrite Forall_lookup in Hf. specialize (Hf _ _ Hy). destruct (comp y q) eqn:E2; [|done]. rewrite <- E. symmetry. eapply (Hm x y); eauto.
Qed.
Lemma hbinary_bool_gen comp ks fuel s e : mono lt (multi m) (fun x => comp x q) -> skeys ks -> s <= e <= length ks -> e - s <= fuel ->
  (forall j x, j < s -> ks !! j = Some x -> comp x q = true) -> (forall j x, e <= j -> ks !! j = Some x -> comp x q = false) ->
  partition_point (fun x => comp x q) ks (hbinary_bool comp q ks fuel s e).
Proof.
  intros Hm Hs. revert s e. induction fuel as [|fuel IH]; intros s e Hse Hfu Hl Hr; cbn.
  - assert (s = e) as -> by lia. split; [lia|]. split; auto.
  - destruct (s =? e) eqn:E; [assert (s = e) as -> by lia; split; [lia|]; split; auto|].
    change (fst (Nat.divmod (s + e) 1 0 1)) with ((s + e) / 2).
    assert (Hmid : s <= (s + e) / 2 < e). { split; [apply Nat.div_le_lower_bound; lia | apply Nat.div_lt_upper_bound; lia]. }
    destruct (lookup_lt_is_Some_2 ks ((s + e) / 2)) as [x Hx]; [lia|]. rewrite Hx.
    destruct (comp x q) eqn:Ec.
    + apply IH; auto; try lia. intros j y Hj Hy. destruct (decide (j = (s + e) / 2)) as [->|]; [congruence|].
      apply (Hm y x); auto. eapply (sorted_lookup lt (multi m) ks j ((s + e) / 2)); eauto. lia.
    + apply IH; auto; try lia. intros j y Hj Hy. destruct (decide (j = (s + e) / 2)) as [->|]; [congruence|].
      destruct (comp y q) eqn:E2; [|done]. rewrite <- Ec. symmetry. apply (Hm x y); auto. eapply (sorted_lookup lt (multi m) ks _ j); eauto. lia.
Qed.
(* a search with an ordering: [e] says whether the key at i matches; the position is the lower bound, but for a binary search of unique keys *)
Definition three_point (good : Prop) ks i (e : bool) : Prop :=
  weak_point ks i /\ (good -> partition_point (fun x => before_q x) ks i) /\
  (if e then exists x, ks !! i = Some x /\ match_q x = true
   else partition_point (fun x => before_q x) ks i /\ forall j x, i <= j -> ks !! j = Some x -> after_q x = true).
Lemma part_weak ks i : partition_point (fun x => before_q x) ks i -> weak_point ks i.
Proof. intros (H1 & H2 & H3). split; [done|]. split; [|done]. intros j x Hj Hx. apply (rg_dis _ _ _ _ Hq). eauto. Qed.
Lemma hcmp_spec x : match hcmp lo hi x q with Lt => lo x q = true | Gt => lo x q = false /\ hi q x = true | Eq => match_q x = true end.
Proof. unfold hcmp, match_q. destruct (lo x q) eqn:E; [done|]. by destruct (hi q x) eqn:E2. Qed.
Lemma lo_right ks i x : skeys ks -> ks !! i = Some x -> before_q x = false -> forall j y, i <= j -> ks !! j = Some y -> before_q y = false.
Proof.
  intros Hs Hx Hf j y Hj Hy. destruct (decide (j = i)) as [->|]; [congruence|]. destruct (lo y q) eqn:E; [|done]. rewrite <- Hf. symmetry.
  apply (mono_lo x y); auto. eapply (sorted_lookup lt (multi m) ks i j); eauto. lia.
Qed.
Lemma lo_left ks i x : skeys ks -> ks !! i = Some x -> before_q x = true -> forall j y, j <= i -> ks !! j = Some y -> before_q y = true.
Proof.
  intros Hs Hx Hf j y Hj Hy. destruct (decide (j = i)) as [->|]; [congruence|]. apply (mono_lo y x); auto. eapply (sorted_lookup lt (multi m) ks j i); eauto. lia.
Qed.
Lemma hi_right ks i x : skeys ks -> ks !! i = Some x -> after_q x = true -> forall j y, i <= j -> ks !! j = Some y -> after_q y = true.
Proof.
  intros Hs Hx Hf j y Hj Hy. destruct (decide (j = i)) as [->|]; [congruence|]. destruct (hi q y) eqn:E; [done|].
  assert (H : negb (hi q x) = true) by (apply (mono_hi x y); [eapply (sorted_lookup lt (multi m) ks i j); eauto; lia|by rewrite E]). by rewrite Hf in H.
Qed.
Lemma hi_left ks i x : skeys ks -> ks !! i = Some x -> after_q x = false -> forall j y, j <= i -> ks !! j = Some y -> after_q y = false.
Proof.
  intros Hs Hx Hf j y Hj Hy. destruct (hi q y) eqn:E; [|done]. rewrite <- Hf. symmetry. by eapply (hi_right ks j y).
Qed.
Lemma match_false x : match_q x = true -> before_q x = false /\ after_q x = false.
Proof. unfold match_q. intros H. apply andb_true_iff in H as [H1 H2]. by apply negb_true_iff in H1, H2. Qed.
Lemma hlinear_three_spec ks : skeys ks -> let '(i, e) := hlinear_three lo hi q ks in three_point True ks i e.
Proof.
  intros Hs. assert (Hgo : let '(i, e) := hlinear_three lo hi q ks in partition_point (fun x => before_q x) ks i /\
    (if e then exists x, ks !! i = Some x /\ match_q x = true else forall j x, i <= j -> ks !! j = Some x -> after_q x = true)).
  { induction Hs as [|x ks Hs IH Hf]; [cbn; split; [split; [done|]; split; intros; [lia|done]|done]|]. cbn [hlinear_three].
    assert (Hss : skeys (x :: ks)) by (by constructor). pose proof (hcmp_spec x) as Hc. destruct (hcmp lo hi x q).
    - apply match_false in Hc as Hm. destruct Hm as [H1 H2]. split; [|exists x; auto]. split; [cbn; lia|]. split; [intros; lia|]. by apply (lo_right _ 0 x).
    - destruct (hlinear_three lo hi q ks) as [i e]. destruct IH as ((H1 & H2 & H3) & H4). split.
      + split; [cbn; lia|]. split; intros [|j] y Hj Hy; cbn in *; simplify_eq; auto; try lia; [apply (H2 j)|apply (H3 j)]; auto; lia.
      + destruct e; [done|]. intros [|j] y Hj Hy; [lia|]. cbn in Hy. apply (H4 j); auto. lia.
    - destruct Hc as [H1 H2]. split; [|by apply (hi_right _ 0 x)]. split; [cbn; lia|]. split; [intros; lia|]. by apply (lo_right _ 0 x). }
  destruct (hlinear_three lo hi q ks) as [i e]. destruct Hgo as [H1 H2]. split; [by apply part_weak|]. split; [done|]. destruct e; [done|]. done.
Qed.
Lemma hbinary_three_gen ks fuel s e (ex : bool) : skeys ks -> s <= e <= length ks -> e - s <= fuel ->
  (forall j x, j < s -> ks !! j = Some x -> before_q x = true) -> (forall j x, e <= j -> ks !! j = Some x -> before_q x = false) ->
  (if ex then exists x, ks !! e = Some x /\ match_q x = true else forall j x, e <= j -> ks !! j = Some x -> after_q x = true) ->
  let '(i, x) := hbinary_three lo hi (multi m) q ks fuel s e ex in three_point (multi m = true) ks i x.
Proof.
  intros Hs. revert s e ex. induction fuel as [|fuel IH]; intros s e ex Hse Hfu Hl Hr Hex; cbn [hbinary_three].
  - assert (s = e) as -> by lia. assert (Hp : partition_point (fun x => before_q x) ks e) by (split; [lia|]; split; auto). split; [by apply part_weak|]. split; [done|]. destruct ex; done.
  - destruct (s =? e) eqn:E.
    { assert (s = e) as -> by lia. assert (Hp : partition_point (fun x => before_q x) ks e) by (split; [lia|]; split; auto). split; [by apply part_weak|]. split; [done|]. destruct ex; done. }
    cbv zeta. assert (Hmid : s <= (s + e) / 2 < e). { split; [apply Nat.div_le_lower_bound; lia | apply Nat.div_lt_upper_bound; lia]. }
    destruct (lookup_lt_is_Some_2 ks ((s + e) / 2)) as [x Hx]; [lia|]. rewrite Hx. pose proof (hcmp_spec x) as Hc. destruct (hcmp lo hi x q).
    + apply match_false in Hc as Hm. destruct Hm as [H1 H2]. pose proof (lo_right ks _ x Hs Hx H1) as Hrt. pose proof (hi_left ks _ x Hs Hx H2) as Hlf. destruct (multi m) eqn:Emu.
      * apply IH; auto; try lia. eauto.
      * split; [|split; [done|eauto]]. split; [lia|]. split; [|done]. intros j y Hj Hy. apply (Hlf j); auto. lia.
    + apply IH; auto; try lia. intros j y Hj Hy. apply (lo_left ks _ x Hs Hx Hc j y); auto. lia.
    + destruct Hc as [H1 H2]. destruct ex.
      * exfalso. destruct Hex as (y & Hy & Hm). apply match_false in Hm as [_ Hm]. rewrite (hi_right ks _ x Hs Hx H2 e y) in Hm; [done|lia|done].
      * apply IH; auto; try lia; [by apply (lo_right _ _ x)|by apply (hi_right _ _ x)].
Qed.
(* the modes in which lower_bound is the lower bound whatever q matches *)
Definition good_mode : Prop := three m = false \/ linear m = true \/ multi m = true.
Lemma hnode_lower_spec ks : skeys ks -> let '(i, e) := hnode_lower lo hi m q ks in
  if three m then three_point good_mode ks i e else partition_point (fun x => before_q x) ks i /\ e = false.
Proof.
  intros Hs. unfold hnode_lower. destruct (three m) eqn:E3, (linear m) eqn:El.
  - pose proof (hlinear_three_spec ks Hs) as H. destruct (hlinear_three lo hi q ks). destruct H as (H1 & H2 & H3). split; [done|]. split; [auto|done].
  - assert (Hr : forall j x (P : Prop), length ks <= j -> ks !! j = Some x -> P). { intros j x P Hj Hx. apply lookup_lt_Some in Hx. lia. }
    pose proof (hbinary_three_gen ks (length ks) 0 (length ks) false Hs ltac:(lia) ltac:(lia) ltac:(lia)) as H.
    destruct (hbinary_three lo hi (multi m) q ks (length ks) 0 (length ks) false) as [i e].
    destruct H as (H1 & H2 & H3); [intros; by eapply Hr..|]. split; [done|]. split; [|done]. intros [?|[?|?]]; [congruence|congruence|auto].
  - split; [|done]. eapply hlinear_bool_spec; eauto using mono_lo.
  - split; [|done]. eapply hbinary_bool_gen; eauto using mono_lo; try lia. intros j x Hj Hx. apply lookup_lt_Some in Hx. lia.
Qed.
Lemma hnode_upper_spec ks : skeys ks -> let '(i, e) := hnode_upper hi m q ks in partition_point (fun x => negb (hi q x)) ks i /\ e = false.
Proof.
  intros Hs. unfold hnode_upper. split; [|done]. destruct (linear m).
  - apply (hlinear_bool_spec (hupper_adapter hi)); auto. apply mono_hi.
  - apply (hbinary_bool_gen (hupper_adapter hi)); auto; try lia. { apply mono_hi. } intros j x Hj Hx. apply lookup_lt_Some in Hx. lia.
Qed.

(** ** descending into the tree, with what holds of the values left and right of the position *)
Definition found_in (E : K -> Prop) c : Prop := exists f gs v t' r, c_path c = f :: gs /\ f_r f = (v, t') :: r /\ E (key v).
Lemma hdescend_spec (stop : bool) (pick : list K -> nat * bool) (PL PR : K -> bool) (E : K -> Prop) h t ps :
  mono lt (multi m) PL -> mono lt (multi m) (fun x => negb (PR x)) ->
  (forall ks, skeys ks -> let '(i, e) := pick ks in i <= length ks /\
     if stop && e then exists x, ks !! i = Some x /\ E x
     else (forall j x, j < i -> ks !! j = Some x -> PL x = true) /\ (forall j x, i <= j -> ks !! j = Some x -> PR x = true)) ->
  wf h t -> srt (elems t) ->
  exists c e, descend key h stop pick t ps = Ok (c, e) /\ root_of c = close_all ps t /\
    if e then stop = true /\ found_in E c
    else c_sub c = Nil /\ (ps <> [] \/ t <> Nil -> c_path c <> []) /\ exists L R, elems t = L ++ R /\ before (c_path c) = before ps ++ L /\ after (c_path c) = R ++ after ps /\
         Forall (fun v => PL (key v) = true) L /\ Forall (fun v => PR (key v) = true) R.
Proof.
  intros HmL HmR Hpick. revert t ps. induction h as [|h IH]; intros [|a k0 rest] ps Hw Hs; try done.
  { exists (mkCur ps Nil), false. split; [done|]. split; [done|]. split; [done|]. split; [cbn; tauto|]. exists [], []. cbn. rewrite app_nil_r. repeat split; auto; constructor. }
  cbn [descend].
  assert (Hks : skeys (map (fun x => key (fst x)) rest)).
  { rewrite elems_node in Hs. apply ss_app in Hs as (_ & Hs & _). apply (sorted_vals key lt m) in Hs. apply (sorted_keys_map key lt m) in Hs. by rewrite map_map in Hs. }
  specialize (Hpick _ Hks) as Hpk. destruct (pick (map (fun x => key (fst x)) rest)) as [i e]. destruct Hpk as [Hi Hpk].
  rewrite map_length in Hi. destruct (child_at_spec i a k0 rest Hi) as (f & t' & -> & Hcl & Hlen & Hmk). cbn [rbind].
  assert (Hvals : map (fun x => key (fst x)) rest = map (fun x => key (snd x)) (f_l f) ++ map (fun x => key (fst x)) (f_r f)).
  { revert Hcl. unfold close. destruct (glue _ _ _) as [k1 r1] eqn:Eg. intros ?; simplify_eq. apply (glue_vals) in Eg. rewrite <- (map_map fst key), Eg, map_app, !map_map. done. }
  rewrite <- Hcl in Hw, Hs |- *. apply wf_close in Hw as (Hff & Ht' & Hcnt). rewrite close_elems in Hs.
  destruct (stop && e) eqn:Ese.
  - apply andb_true_iff in Ese as [-> ->]. destruct Hpk as (x & Hx & HE). eexists _, true. split; [done|]. split; [done|]. split; [done|].
    rewrite Hvals in Hx. rewrite lookup_app_r in Hx by (rewrite map_length; lia). rewrite map_length, Hlen, Nat.sub_diag in Hx.
    destruct (f_r f) as [|[v1 k1] r1] eqn:Er; [done|]. cbn in Hx. simplify_eq. exists f, ps, v1, k1, r1. auto.
  - destruct Hpk as [Hlo Hhi].
    assert (HL : Forall (fun v => PL (key v) = true) (cat_l (f_l f))).
    { pose proof (unsnoc_spec (f_l f)) as Hu. destruct (unsnoc (f_l f)) as [[l0 [k1 v1]]|]; [|rewrite Hu; constructor].
      assert (Hv1 : PL (key v1) = true).
      { apply (Hlo (length l0)). { rewrite <- Hlen, Hu, app_length. cbn. lia. }
        rewrite Hvals, Hu, map_app, <- app_assoc. rewrite lookup_app_r by (rewrite map_length; lia). by rewrite map_length, Nat.sub_diag. }
      rewrite Hu, cat_l_app, cat_l_cons, cat_l_nil in Hs |- *.
      assert (Heq : (cat_l l0 ++ elems k1 ++ [v1]) ++ elems t' ++ cat_r (f_r f) = (cat_l l0 ++ elems k1) ++ v1 :: (elems t' ++ cat_r (f_r f))) by (by rewrite <- !app_assoc).
      rewrite Heq in Hs. rewrite app_assoc, Forall_app. split; [|by repeat constructor]. eapply (part_left key lt m); eauto. }
    assert (HR : Forall (fun v => PR (key v) = true) (cat_r (f_r f))).
    { destruct (f_r f) as [|[v1 k1] r1] eqn:Er; [constructor|].
      assert (Hlk : map (fun x => key (fst x)) rest !! i = Some (key v1)).
      { rewrite Hvals. rewrite lookup_app_r by (rewrite map_length; lia). rewrite map_length, Hlen, Nat.sub_diag. done. }
      assert (Hv1 : PR (key v1) = true) by (apply (Hhi i); auto).
      rewrite cat_r_cons in *. rewrite app_assoc in Hs. constructor; [done|].
      assert (Hk : Forall (fun x => negb (PR (key x)) = false) (elems k1 ++ cat_r r1)). { eapply (part_right key lt m (fun x => negb (PR x))); eauto. cbn. by rewrite Hv1. }
      eapply Forall_impl; [exact Hk|]. cbn. intros x Hx. by apply negb_false_iff in Hx. }
    destruct (IH t' (f :: ps) Ht') as (c & e' & -> & Hroot & Hres). { apply ss_app in Hs as (_ & Hs & _). by apply ss_app in Hs as (Hs & _). }
    exists c, e'. split; [done|]. split; [done|]. destruct e'; [done|].
    destruct Hres as (Hsub & Hne & L & R & HeLR & Hb & Ha & HfL & HfR). split; [done|]. split; [intros _; apply Hne; by left|].
    exists (cat_l (f_l f) ++ L), (R ++ cat_r (f_r f)). rewrite close_elems, HeLR. cbn in Hb, Ha. rewrite Hb, Ha, <- !app_assoc.
    split; [done|]. split; [done|]. split; [done|]. rewrite !Forall_app. done.
Qed.
(* without stopping: either a match is at or after the position, or no key was ever met that matches *)
Lemma hdescend_hit (pick : list K -> nat * bool) (PL PR E : K -> bool) h t ps :
  mono lt (multi m) PL -> mono lt (multi m) (fun x => negb (PR x)) ->
  (forall ks, skeys ks -> let '(i, e) := pick ks in i <= length ks /\
     if e then exists x, ks !! i = Some x /\ E x = true
     else (forall j x, j < i -> ks !! j = Some x -> PL x = true) /\ (forall j x, i <= j -> ks !! j = Some x -> PR x = true)) ->
  wf h t -> srt (elems t) ->
  exists c L R, descend key h false pick t ps = Ok (c, false) /\ elems t = L ++ R /\ before (c_path c) = before ps ++ L /\ after (c_path c) = R ++ after ps /\
    (Exists (fun v => E (key v) = true) R \/ (Forall (fun v => PL (key v) = true) L /\ Forall (fun v => PR (key v) = true) R)).
Proof.
  intros HmL HmR Hpick. revert t ps. induction h as [|h IH]; intros [|a k0 rest] ps Hw Hs; try done.
  { exists (mkCur ps Nil), [], []. cbn. rewrite app_nil_r. split_and!; auto. }
  cbn [descend].
  assert (Hks : skeys (map (fun x => key (fst x)) rest)).
  { rewrite elems_node in Hs. apply ss_app in Hs as (_ & Hs & _). apply (sorted_vals key lt m) in Hs. apply (sorted_keys_map key lt m) in Hs. by rewrite map_map in Hs. }
  specialize (Hpick _ Hks) as Hpk. destruct (pick (map (fun x => key (fst x)) rest)) as [i e]. destruct Hpk as [Hi Hpk].
  rewrite map_length in Hi. destruct (child_at_spec i a k0 rest Hi) as (f & t' & -> & Hcl & Hlen & Hmk). cbn [rbind].
  assert (Hvals : map (fun x => key (fst x)) rest = map (fun x => key (snd x)) (f_l f) ++ map (fun x => key (fst x)) (f_r f)).
  { revert Hcl. unfold close. destruct (glue _ _ _) as [k1 r1] eqn:Eg. intros ?; simplify_eq. apply (glue_vals) in Eg. rewrite <- (map_map fst key), Eg, map_app, !map_map. done. }
  rewrite <- Hcl in Hw, Hs |- *. apply wf_close in Hw as (Hff & Ht' & Hcnt). rewrite close_elems in Hs.
  cbn [andb].
  destruct (IH t' (f :: ps) Ht') as (c & L & R & -> & HeLR & Hb & Ha & Hres). { apply ss_app in Hs as (_ & Hs & _). by apply ss_app in Hs as (Hs & _). }
  exists c, (cat_l (f_l f) ++ L), (R ++ cat_r (f_r f)). split; [done|]. rewrite close_elems, HeLR. cbn in Hb, Ha. rewrite Hb, Ha, <- !app_assoc.
  split; [done|]. split; [done|]. split; [done|]. rewrite Exists_app, !Forall_app. destruct e.
  - left. right. destruct Hpk as (x & Hx & HE). rewrite Hvals in Hx. rewrite lookup_app_r in Hx by (rewrite map_length; lia). rewrite map_length, Hlen, Nat.sub_diag in Hx.
    destruct (f_r f) as [|[v1 k1] r1] eqn:Er; [done|]. cbn in Hx. simplify_eq. rewrite cat_r_cons. by left.
  - destruct Hpk as [Hlo Hhi].
    assert (HL : Forall (fun v => PL (key v) = true) (cat_l (f_l f))).
    { pose proof (unsnoc_spec (f_l f)) as Hu. destruct (unsnoc (f_l f)) as [[l0 [k1 v1]]|]; [|rewrite Hu; constructor].
      assert (Hv1 : PL (key v1) = true).
      { apply (Hlo (length l0)). { rewrite <- Hlen, Hu, app_length. cbn. lia. }
        rewrite Hvals, Hu, map_app, <- app_assoc. rewrite lookup_app_r by (rewrite map_length; lia). by rewrite map_length, Nat.sub_diag. }
      rewrite Hu, cat_l_app, cat_l_cons, cat_l_nil in Hs |- *.
      assert (Heq : (cat_l l0 ++ elems k1 ++ [v1]) ++ elems t' ++ cat_r (f_r f) = (cat_l l0 ++ elems k1) ++ v1 :: (elems t' ++ cat_r (f_r f))) by (by rewrite <- !app_assoc).
      rewrite Heq in Hs. rewrite app_assoc, Forall_app. split; [|by repeat constructor]. eapply (part_left key lt m); eauto. }
    assert (HR : Forall (fun v => PR (key v) = true) (cat_r (f_r f))).
    { destruct (f_r f) as [|[v1 k1] r1] eqn:Er; [constructor|].
      assert (Hlk : map (fun x => key (fst x)) rest !! i = Some (key v1)).
      { rewrite Hvals. rewrite lookup_app_r by (rewrite map_length; lia). rewrite map_length, Hlen, Nat.sub_diag. done. }
      assert (Hv1 : PR (key v1) = true) by (apply (Hhi i); auto).
      rewrite cat_r_cons in *. rewrite app_assoc in Hs. constructor; [done|].
      assert (Hk : Forall (fun x => negb (PR (key x)) = false) (elems k1 ++ cat_r r1)). { eapply (part_right key lt m (fun x => negb (PR x))); eauto. cbn. by rewrite Hv1. }
      eapply Forall_impl; [exact Hk|]. cbn. intros x Hx. by apply negb_false_iff in Hx. }
    destruct Hres as [?|[? ?]]; [left; by left|right; auto].
Qed.
(** ** the bounds of q in a list *)
Definition qlower l : nat := length (List.filter (fun v => lo (key v) q) l).
Definition qupper l : nat := length (List.filter (fun v => negb (hi q (key v))) l).
Lemma qlower_lookup l j v : srt l -> l !! j = Some v -> lo (key v) q = (j <? qlower l).
Proof. intros Hs Hj. apply (filter_lookup key lt (multi m) (fun x : K => lo x q)); auto. apply mono_lo. Qed.
Lemma qupper_lookup l j v : srt l -> l !! j = Some v -> hi q (key v) = negb (j <? qupper l).
Proof. intros Hs Hj. unfold qupper. rewrite <- (filter_lookup key lt (multi m) (fun x : K => negb (hi q x)) l j v); auto; [by rewrite negb_involutive|apply mono_hi]. Qed.
Lemma qlower_upper l : qlower l <= qupper l.
Proof.
  unfold qlower, qupper. induction l as [|x l IH]; cbn; [lia|]. destruct (lo (key x) q) eqn:E1, (hi q (key x)) eqn:E2; cbn; try lia.
  apply (rg_dis _ _ _ _ Hq) in E1. congruence.
Qed.
Lemma qupper_le l : qupper l <= length l.
Proof. unfold qupper. induction l as [|x l IH]; cbn; [lia|]. destruct (negb _); cbn; lia. Qed.
(* the end of a descent *)
Lemma land b l c (PL PR : K -> bool) : repr b l -> root_of c = b_root b -> c_sub c = Nil ->
  (exists L R, elems (b_root b) = L ++ R /\ before (c_path c) = before [] ++ L /\ after (c_path c) = R ++ after [] /\ Forall (fun v => PL (key v) = true) L /\ Forall (fun v => PR (key v) = true) R) ->
  exists i, i <= length l /\ length (lefts c) = i /\ (forall j v, j < i -> l !! j = Some v -> PL (key v) = true) /\ (forall j v, i <= j -> l !! j = Some v -> PR (key v) = true) /\
    match internal_last c with Some c' => it (b_root b) i c' /\ i < length l | None => i = length l end.
Proof.
  intros (Hsh & Hl & Hs) Hroot Hsub (L & R & HLR & Hb & Ha & HfL & HfR). cbn in Hb, Ha. rewrite app_nil_r in Ha. rewrite Hl in HLR. clear Hl. subst l.
  exists (length L). rewrite app_length. assert (Hlefts : length (lefts c) = length L) by (unfold lefts; by rewrite Hb, Hsub, elems_nil, app_nil_r).
  split; [lia|]. split; [done|]. split; [|split].
  - intros j v Hj Hv. rewrite lookup_app_l in Hv by lia. rewrite Forall_lookup in HfL. eauto.
  - intros j v Hj Hv. rewrite lookup_app_r in Hv by lia. rewrite Forall_lookup in HfR. eauto.
  - pose proof (climb_result b c Hroot) as Hc. unfold rights in Hc. rewrite Ha in Hc. destruct (internal_last c) as [c'|].
    + destruct Hc as [Hi HR]. rewrite Hlefts in Hi. split; [done|]. destruct R; [done|]. cbn. lia.
    + rewrite Hc. cbn. lia.
Qed.
(* a position with the values before q on its left and no such value on its right is the lower bound *)
Lemma at_lower l i : srt l -> i <= length l -> (forall j v, j < i -> l !! j = Some v -> lo (key v) q = true) -> (forall j v, i <= j -> l !! j = Some v -> lo (key v) q = false) -> i = qlower l.
Proof.
  intros Hs Hi H1 H2. pose proof (qlower_upper l). pose proof (qupper_le l). destruct (decide (i < qlower l)) as [E|E].
  - destruct (lookup_lt_is_Some_2 l i) as [v Hv]; [lia|]. specialize (H2 i v ltac:(lia) Hv). rewrite (qlower_lookup l i v) in H2 by auto. lia.
  - destruct (decide (qlower l < i)) as [E2|]; [|lia]. destruct (lookup_lt_is_Some_2 l (qlower l)) as [v Hv]; [lia|].
    specialize (H1 _ v E2 Hv). rewrite (qlower_lookup l _ v) in H1 by eauto. lia.
Qed.
Lemma at_upper l i : srt l -> i <= length l -> (forall j v, j < i -> l !! j = Some v -> negb (hi q (key v)) = true) -> (forall j v, i <= j -> l !! j = Some v -> hi q (key v) = true) -> i = qupper l.
Proof.
  intros Hs Hi H1 H2. pose proof (qupper_le l). destruct (decide (i < qupper l)) as [E|E].
  - destruct (lookup_lt_is_Some_2 l i) as [v Hv]; [lia|]. specialize (H2 i v ltac:(lia) Hv). rewrite (qupper_lookup l i v) in H2 by auto. lia.
  - destruct (decide (qupper l < i)) as [E2|]; [|lia]. destruct (lookup_lt_is_Some_2 l (qupper l)) as [v Hv]; [lia|].
    specialize (H1 _ v E2 Hv). rewrite (qupper_lookup l _ v) in H1 by eauto. lia.
Qed.
Lemma at_weak l i : srt l -> i <= length l -> (forall j v, j < i -> l !! j = Some v -> negb (hi q (key v)) = true) -> (forall j v, i <= j -> l !! j = Some v -> negb (lo (key v) q) = true) -> qlower l <= i <= qupper l.
Proof.
  intros Hs Hi H1 H2. pose proof (qlower_upper l). pose proof (qupper_le l). split.
  - destruct (decide (i < qlower l)) as [E|]; [|lia]. destruct (lookup_lt_is_Some_2 l i) as [v Hv]; [lia|]. specialize (H2 i v ltac:(lia) Hv). rewrite (qlower_lookup l i v) in H2 by auto. lia.
  - destruct (decide (qupper l < i)) as [E2|]; [|lia]. destruct (lookup_lt_is_Some_2 l (qupper l)) as [v Hv]; [lia|].
    specialize (H1 _ v E2 Hv). rewrite (qupper_lookup l _ v) in H1 by eauto. lia.
Qed.
Lemma mono_nlo : mono lt (multi m) (fun x => negb (negb (lo x q))).
Proof. intros x y Hr Hp. rewrite negb_involutive in *. by apply (mono_lo x y). Qed.
(** ** the bounds *)
Theorem hinternal_lower_spec b l : repr b l -> exists o i, hinternal_lower key lo hi m b q = Ok o /\
  match o with Some c => it (b_root b) i c /\ i < length l | None => i = length l end /\ qlower l <= i <= qupper l /\ (qlower l < qupper l -> i < qupper l) /\ (good_mode -> i = qlower l).
Proof.
  intros Hb. pose proof Hb as ((H & Hw & _) & Hl & Hs). unfold hinternal_lower. rewrite (wf_height _ _ _ Hw).
  assert (good_mode \/ (three m = true /\ linear m = false /\ multi m = false)) as [Hg|(E1 & E2 & E3)].
  { unfold good_mode. destruct (three m), (linear m), (multi m); auto. }
  - destruct (hdescend_spec false (hnode_lower lo hi m q) (fun x => lo x q) (fun x => negb (lo x q)) (fun _ => False) H (b_root b) []) as (c & e & -> & Hroot & Hres); auto; [apply mono_lo|apply mono_nlo| |by rewrite Hl|].
    { intros ks Hks. pose proof (hnode_lower_spec ks Hks) as Hn. destruct (hnode_lower lo hi m q ks) as [i e]. cbn [andb].
      assert (Hp : partition_point (fun x => lo x q) ks i) by (destruct (three m); [apply Hn; done|tauto]). destruct Hp as (H1 & H2 & H3). split; [done|]. split; [done|].
      intros j x Hj Hx. by rewrite (H3 j x Hj Hx). }
    cbn [rbind]. destruct e; [by destruct Hres|]. destruct Hres as (Hsub & _ & HLR).
    destruct (land b l c (fun x => lo x q) (fun x => negb (lo x q)) Hb Hroot Hsub HLR) as (i & Hi & _ & H1 & H2 & H3).
    assert (Hi' : i = qlower l). { apply at_lower; auto. intros j v Hj Hv. specialize (H2 j v Hj Hv). by apply negb_true_iff in H2. }
    eexists _, i. split; [done|]. split; [done|]. pose proof (qlower_upper l). split; [lia|]. split; [lia|done].
  - destruct (hdescend_spec false (hnode_lower lo hi m q) (fun x => negb (hi q x)) (fun x => negb (lo x q)) (fun _ => False) H (b_root b) []) as (c & e & Ed & Hroot & Hres); auto; [apply mono_hi|apply mono_nlo| |by rewrite Hl|].
    { intros ks Hks. pose proof (hnode_lower_spec ks Hks) as Hn. destruct (hnode_lower lo hi m q ks) as [i e]. cbn [andb]. rewrite E1 in Hn. destruct Hn as ((H1 & H2 & H3) & _).
      split; [done|]. split; intros j x Hj Hx; [by rewrite (H2 j x)|by rewrite (H3 j x)]. }
    destruct (hdescend_hit (hnode_lower lo hi m q) (fun x => lo x q) (fun x => hi q x) match_q H (b_root b) []) as (c0 & L & R & Ed0 & HLR0 & Hbf & Haf & Hhit); auto; [apply mono_lo|apply mono_hi| |by rewrite Hl|].
    { intros ks Hks. pose proof (hnode_lower_spec ks Hks) as Hn. destruct (hnode_lower lo hi m q ks) as [i e']. rewrite E1 in Hn. destruct Hn as ((H0 & _) & _ & H1).
      split; [done|]. destruct e'; [done|]. destruct H1 as ((H1 & H2 & H3) & H4). done. }
    rewrite Ed0 in Ed. injection Ed as -> <-. rewrite Ed0. cbn [rbind]. destruct Hres as (Hsub & _ & HLR).
    destruct (land b l c (fun x => negb (hi q x)) (fun x => negb (lo x q)) Hb Hroot Hsub HLR) as (i & Hi & Hli & H1 & H2 & H3).
    assert (HiL : i = length L) by (rewrite <- Hli; unfold lefts; cbn in Hbf; by rewrite Hbf, Hsub, elems_nil, app_nil_r).
    assert (Hlt2 : qlower l < qupper l -> i < qupper l).
    { intros Hlu. rewrite Hl in HLR0. clear Hl. subst l. rewrite HiL in *. destruct Hhit as [Hex|[HfL HfR]].
      - apply Exists_exists in Hex as (v & Hv & Hm). apply elem_of_list_lookup in Hv as [n Hn]. apply match_false in Hm as [_ Hm].
        assert (Hlk : (L ++ R) !! (length L + n) = Some v) by (rewrite lookup_app_r by lia; by replace (length L + n - length L) with n by lia).
        rewrite (qupper_lookup (L ++ R) _ v Hs Hlk) in Hm. lia.
      - exfalso. assert (length L = qlower (L ++ R)); [|assert (length L = qupper (L ++ R)); [|lia]].
        + apply at_lower; auto. { intros j v Hj Hv. rewrite lookup_app_l in Hv by lia. rewrite Forall_lookup in HfL. eauto. }
          intros j v Hj Hv. specialize (H2 j v Hj Hv). by apply negb_true_iff in H2.
        + apply at_upper; auto. intros j v Hj Hv. rewrite lookup_app_r in Hv by lia. rewrite Forall_lookup in HfR. eauto. }
    eexists _, i. split; [done|]. split; [done|]. split; [by apply at_weak|]. split; [done|]. unfold good_mode. rewrite E1, E2, E3. intros [?|[?|?]]; done.
Qed.
Theorem hinternal_upper_spec b l : repr b l -> exists o, hinternal_upper key hi m b q = Ok o /\
  match o with Some c => it (b_root b) (qupper l) c /\ qupper l < length l | None => qupper l = length l end.
Proof.
  intros Hb. pose proof Hb as ((H & Hw & _) & Hl & Hs). unfold hinternal_upper. rewrite (wf_height _ _ _ Hw).
  destruct (hdescend_spec false (hnode_upper hi m q) (fun x => negb (hi q x)) (fun x => hi q x) (fun _ => False) H (b_root b) []) as (c & e & -> & Hroot & Hres); auto; [apply mono_hi|apply mono_hi| |by rewrite Hl|].
  { intros ks Hks. pose proof (hnode_upper_spec ks Hks) as Hn. destruct (hnode_upper hi m q ks) as [i e]. cbn [andb]. destruct Hn as ((H1 & H2 & H3) & _). split; [done|]. split; [done|].
    intros j x Hj Hx. specialize (H3 j x Hj Hx). by apply negb_false_iff in H3. }
  cbn [rbind]. destruct e; [by destruct Hres|]. destruct Hres as (Hsub & _ & HLR).
  destruct (land b l c (fun x => negb (hi q x)) (fun x => hi q x) Hb Hroot Hsub HLR) as (i & Hi & _ & H1 & H2 & H3).
  rewrite <- (at_upper l i Hs Hi H1 H2). eauto.
Qed.
Theorem hlower_bound_spec b l : repr b l -> exists c i, hlower_bound key lo hi m b q = Ok c /\ it (b_root b) i c /\ qlower l <= i <= qupper l /\ (qlower l < qupper l -> i < qupper l) /\ (good_mode -> i = qlower l).
Proof.
  intros Hb. unfold hlower_bound. destruct (hinternal_lower_spec b l Hb) as (o & i & -> & Ho & Hi). cbn [rbind].
  destruct (internal_end_spec key lt kN m b l o i Hb Ho) as (c & -> & Hc). eauto.
Qed.
Theorem hupper_bound_spec b l : repr b l -> exists c, hupper_bound key hi m b q = Ok c /\ it (b_root b) (qupper l) c.
Proof.
  intros Hb. unfold hupper_bound. destruct (hinternal_upper_spec b l Hb) as (o & -> & Ho). cbn [rbind].
  destruct (internal_end_spec key lt kN m b l o _ Hb Ho) as (c & -> & Hc). eauto.
Qed.
(** ** find: a value that matches, the first one when the comparator returns a bool *)
Theorem hinternal_find_spec b l : repr b l -> exists o, hinternal_find key lo hi m b q = Ok o /\
  match o with
  | Some c => exists i, it (b_root b) i c /\ qlower l <= i < qupper l /\ (three m = false -> i = qlower l)
  | None => qlower l = qupper l
  end.
Proof.
  intros Hb. pose proof Hb as ((H & Hw & _) & Hl & Hs). unfold hinternal_find, hlocate. rewrite (wf_height _ _ _ Hw). destruct (three m) eqn:E3.
  - destruct (hdescend_spec true (hnode_lower lo hi m q) (fun x => lo x q) (fun x => hi q x) (fun x => match_q x = true) H (b_root b) []) as (c & e & -> & Hroot & Hres); auto; [apply mono_lo|apply mono_hi| |by rewrite Hl|].
    { intros ks Hks. pose proof (hnode_lower_spec ks Hks) as Hn. destruct (hnode_lower lo hi m q ks) as [i e]. cbn [andb]. rewrite E3 in Hn. destruct Hn as ((H0 & _) & _ & H1).
      split; [done|]. destruct e; [done|]. destruct H1 as ((H1 & H2 & H3) & H4). done. }
    cbn [rbind]. cbn [close_all] in Hroot. destruct e.
    + destruct Hres as (_ & f & gs & v & t' & r & Hp & Hfr & HE). eexists. split; [done|]. exists (length (lefts c)).
      assert (Hv : l !! length (lefts c) = Some v).
      { rewrite <- Hl, <- Hroot, root_elems. rewrite lookup_app_r by lia. rewrite Nat.sub_diag. unfold rights. rewrite Hp. cbn. rewrite Hfr, cat_r_cons. done. }
      apply match_false in HE as [H1 H2]. rewrite (qlower_lookup l _ v Hs Hv) in H1. rewrite (qupper_lookup l _ v Hs Hv) in H2.
      split; [|split; [lia|done]]. split; [done|]. split; [|done]. unfold normal. rewrite Hp. left. by rewrite Hfr.
    + destruct Hres as (Hsub & _ & HLR). destruct (land b l c (fun x => lo x q) (fun x => hi q x) Hb Hroot Hsub HLR) as (i & Hi & _ & H1 & H2 & _).
      eexists. split; [done|]. rewrite <- (at_lower l i), <- (at_upper l i); auto.
      * intros j v Hj Hv. rewrite (rg_dis _ _ _ _ Hq); eauto.
      * intros j v Hj Hv. specialize (H2 j v Hj Hv). destruct (lo (key v) q) eqn:E; [|done]. rewrite (rg_dis _ _ _ _ Hq _ E) in H2. done.
  - destruct (hdescend_spec false (hnode_lower lo hi m q) (fun x => lo x q) (fun x => negb (lo x q)) (fun _ => False) H (b_root b) []) as (c & e & -> & Hroot & Hres); auto; [apply mono_lo|apply mono_nlo| |by rewrite Hl|].
    { intros ks Hks. pose proof (hnode_lower_spec ks Hks) as Hn. destruct (hnode_lower lo hi m q ks) as [i e]. cbn [andb]. rewrite E3 in Hn. destruct Hn as ((H1 & H2 & H3) & _).
      split; [done|]. split; [done|]. intros j x Hj Hx. by rewrite (H3 j x Hj Hx). }
    cbn [rbind]. destruct e; [by destruct Hres|]. destruct Hres as (Hsub & _ & HLR).
    destruct (land b l c (fun x => lo x q) (fun x => negb (lo x q)) Hb Hroot Hsub HLR) as (i & Hi & _ & H1 & H2 & H3).
    assert (Hi' : i = qlower l). { apply at_lower; auto. intros j v Hj Hv. specialize (H2 j v Hj Hv). by apply negb_true_iff in H2. }
    destruct (internal_last c) as [c'|].
    + destruct H3 as [Hc' Hil]. destruct (lookup_lt_is_Some_2 l i Hil) as [v Hv]. rewrite (it_value (b_root b) i c' v Hc') by (by rewrite Hl). cbn [rbind].
      pose proof (qupper_lookup l i v Hs Hv) as Hu. pose proof (qlower_upper l). destruct (hi q (key v)) eqn:Ev.
      * eexists. split; [done|]. cbn. lia.
      * eexists. split; [done|]. cbn. exists i. split; [done|]. split; [lia|done].
    + eexists. split; [done|]. cbn. pose proof (qlower_upper l). pose proof (qupper_le l). lia.
Qed.
Theorem hfind_spec b l : repr b l -> exists c i, hfind key lo hi m b q = Ok c /\ it (b_root b) i c /\
  (qlower l < qupper l -> qlower l <= i < qupper l /\ (three m = false -> i = qlower l)) /\ (qlower l = qupper l -> i = length l).
Proof.
  intros Hb. unfold hfind. destruct (hinternal_find_spec b l Hb) as (o & -> & Ho). cbn [rbind]. destruct o as [c|]; cbn [internal_end].
  - destruct Ho as (i & Hi & H1 & H2). exists c, i. split; [done|]. split; [done|]. split; [auto|lia].
  - destruct (end_it key lt kN m b l Hb) as (e & -> & He). exists e, (length l). split; [done|]. split; [done|]. split; [lia|done].
Qed.
Theorem hcontains_spec b l : repr b l -> hcontains key lo hi m b q = Ok (qlower l <? qupper l).
Proof.
  intros Hb. unfold hcontains. destruct (hfind_spec b l Hb) as (c & i & -> & Hi & H1 & H2). cbn [rbind]. destruct (end_it key lt kN m b l Hb) as (e & -> & He). cbn [rbind].
  rewrite (same_r key lt kN m b l i (length l) c e Hb Hi He). f_equal. pose proof (qlower_upper l). pose proof (qupper_le l). destruct (decide (qlower l < qupper l)); [|lia].
  specialize (H1 l0). lia.
Qed.
Theorem hcount_spec b l : repr b l -> hcount key lo hi m b q = Ok (if multi m then qupper l - qlower l else Nat.min 1 (qupper l - qlower l)).
Proof.
  intros Hb. unfold hcount. pose proof (qlower_upper l). destruct (multi m) eqn:Emu.
  - unfold hequal_range. destruct (hlower_bound_spec b l Hb) as (c & i & -> & Hc & _ & _ & Hg). destruct (hupper_bound_spec b l Hb) as (d & -> & Hd). cbn [rbind].
    rewrite Hg in Hc by (right; by right). apply (distance_spec kN HkN b); auto; [apply Hb|]. rewrite (repr_size key lt kN m b l Hb). pose proof (qupper_le l). lia.
  - destruct (hinternal_find_spec b l Hb) as (o & -> & Ho). cbn [rbind]. f_equal. destruct o; [destruct Ho as (i & _ & Ho & _)|]; lia.
Qed.
Theorem herase_spec b l : repr b l -> exists b' i, herase key lo hi kN m b q = Ok (b', (if multi m then qupper l - qlower l else Nat.min 1 (qupper l - qlower l))) /\
  let n := if multi m then qupper l - qlower l else Nat.min 1 (qupper l - qlower l) in
  repr b' (remove_at i n l) /\ qlower l <= i /\ i + n <= qupper l.
Proof.
  intros Hb. unfold herase. pose proof (qlower_upper l) as Hlu. pose proof (qupper_le l) as Hul. destruct (multi m) eqn:Emu.
  - destruct (hinternal_lower_spec b l Hb) as (o & i & -> & Ho & _ & _ & Hg). rewrite Hg in Ho by (right; by right). cbn [rbind]. destruct o as [c|].
    + destruct Ho as [Hc _]. destruct (hupper_bound_spec b l Hb) as (d & -> & Hd). cbn [rbind].
      destruct (erase_range_spec key lt kN m HkN b l _ _ c d Hb Hc Hd Hlu) as (b' & c' & -> & Hb' & _). cbn [rbind]. exists b', (qlower l). split; [done|]. split; [done|lia].
    + exists b, (qlower l). replace (qupper l - qlower l) with 0 by lia. split; [done|]. cbv zeta. unfold remove_at. rewrite Nat.add_0_r, take_drop. split; [done|lia].
  - destruct (hinternal_find_spec b l Hb) as (o & -> & Ho). cbn [rbind]. destruct o as [c|].
    + destruct Ho as (i & Hi & Hiu & _). destruct (erase_it key lt kN m HkN b l i c Hb Hi) as (b' & c' & -> & Hb' & _); [lia|]. cbn [rbind]. exists b', i.
      replace (Nat.min 1 (qupper l - qlower l)) with 1 by lia. split; [done|]. split; [done|lia].
    + exists b, (qlower l). replace (Nat.min 1 (qupper l - qlower l)) with 0 by lia. split; [done|]. cbv zeta. unfold remove_at. rewrite Nat.add_0_r, take_drop. split; [done|lia].
Qed.
End Facts.
