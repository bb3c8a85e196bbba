(** The uninitialized_* loops, relocation, allocation. *)
From stdpp Require Import gmap list infinite fin_map_dom.
From Coq Require Import NArith Lia.
From Verif.Common Require Import Word.
From Verif.Vec Require Import Model Wp.
Local Open Scope nat_scope.

Set Default Proof Using "Type".

Section Ranges.
Context {V : Type} (tr : traits) (moved : V -> V) (dflt : V).
Notation heap := (gmap nat (list (@cell V))).
Notation M := (@M V).
Implicit Types (mv : bool) (xs ys : list V) (h : heap) (rg : list vec) (E : heap -> list vec -> Prop).
Notation post A := (A -> heap -> list vec -> Prop).
Notation "x <- m ;; k" := (bind m (fun x => k)) (at level 100, m at next level, right associativity).
Notation "m ;;; k" := (bind m (fun _ => k)) (at level 100, right associativity).
Notation live_f := (live_f (V := V)).
Notation hov := (hov (V := V)).
Notation src_f := (src_f tr moved).
Notation dead_f := (dead_f (V := V) tr).
Notation avail := (avail (V := V) tr).

Lemma wp_ufill d i n a x (Q : post unit) E h rg :
  (forall k, k < n -> exists c, cellat h (d, i + k) = Some c /\ avail c) -> aval h a x ->
  (forall l, a = Ref l -> rng d i n l = false) ->
  (forall h', hov h h' (live_f d i (replicate n x)) -> Q tt h' rg) -> (copy_throws tr = true -> E h rg) ->
  wp (ufill tr moved d i n a) Q E h rg.
Proof.
  intros Hd Ha Hl HQ HE. unfold ufill. replace n with (length (replicate n x)) at 1 by apply replicate_length.
  apply (wp_con_loop tr moved d i (replicate n x) (fun _ => a) false _ _ 0 0 Q E h rg i).
  - intros k. right. split; [reflexivity|]. intros h1 h2 y f Hf Hn Hy. destruct a as [v|l]; [exact Hy|]. cbn [aval] in *.
    rewrite (hov_cell _ _ _ _ Hf), Hy, Hn by (rewrite replicate_length; auto). reflexivity.
  - reflexivity.
  - intros k. f_equal. lia.
  - rewrite replicate_length. exact Hd.
  - intros k y Hy. apply lookup_replicate_1 in Hy as [-> _]. assumption.
  - discriminate.
  - intros h' Hh. apply HQ. eapply hov_ext; [exact Hh|]. intros l c _. unfold orelse, src_f. destruct (live_f d i (replicate n x) l); reflexivity.
  - intros h' k _ Ht Hh. rewrite (hov_none _ _ _ Hh); [apply HE, Ht|]. intros l c _. left. reflexivity.
Qed.
Lemma wp_ufill_default d i n (Q : post unit) E h rg :
  (forall k, k < n -> exists c, cellat h (d, i + k) = Some c /\ avail c) ->
  (forall h', hov h h' (live_f d i (replicate n dflt)) -> Q tt h' rg) -> (copy_throws tr = true -> E h rg) ->
  wp (ufill_default tr dflt d i n) Q E h rg.
Proof.
  intros Hd HQ HE. unfold ufill_default.
  set (F := fun k => live_f d i (replicate k dflt)).
  eapply wp_mono; [apply (wp_for_guard n i _ _ (fun k h' rg' => rg' = rg /\ hov h h' (F (k - i))) E)| |].
  - intros k h1 rg1 K1 K2 [-> H1]. set (q := k - i) in *. assert (Hq : q < n) by (unfold q; lia). replace k with (i + q) by (unfold q; lia).
    destruct (Hd q Hq) as (c & Hc & Hav). assert (Hd1 : cellat h1 (d, i + q) = Some c).
    { rewrite (hov_cell _ _ _ _ H1), Hc. unfold F. rewrite live_f_none; [reflexivity|]. rewrite replicate_length. apply Bool.not_true_iff_false. rewrite rng_true. cbn [fst snd]. lia. }
    eapply wp_construct_default; [exact Hd1|exact Hav| |].
    + intros h2 H2. split; [reflexivity|]. eapply hov_ext; [exact (hov_trans _ _ _ _ _ H1 H2)|]. intros l cl _. replace (S (i + q) - i) with (S q) by lia. unfold F.
      rewrite replicate_S_end, live_f_snoc, replicate_length. destruct (at1 (d, i + q) l); reflexivity.
    + intros Ht. assert (Et : t_triv tr = false) by (unfold copy_throws in Ht; destruct (t_triv tr); [discriminate|reflexivity]).
      apply wp_destroy_range.
      * intros _ m M1 M2. destruct (live_f_some d i (replicate q dflt) (d, m)) as (y & _ & Hy); [apply rng_true; rewrite replicate_length; cbn [fst snd]; lia|].
        exists y. rewrite (hov_cell _ _ _ _ H1). destruct (Hd (m - i)) as (c' & Hc' & _); [lia|]. replace (i + (m - i)) with m in Hc' by lia. rewrite Hc'. unfold F. rewrite Hy. reflexivity.
      * intros h2 H2. pose proof (hov_trans _ _ _ _ _ H1 H2) as H3. rewrite (hov_none _ _ _ H3); [apply HE, Ht|]. intros l cl Hcl. unfold dead_f. rewrite Et. cbn [negb]. rewrite andb_true_r.
        replace (i + q - i) with q by lia. destruct (rng d i q l) eqn:E1.
        -- right. pose proof E1 as E1'. apply rng_true in E1'. destruct l as [b m]. cbn [fst snd] in *. destruct E1' as (-> & M1 & M2).
           destruct (Hd (m - i)) as (c' & Hc' & Hav'); [lia|]. replace (i + (m - i)) with m in Hc' by lia. rewrite Hcl in Hc'. injection Hc' as <-.
           destruct Hav' as [|Hraw]; congruence.
        -- left. unfold F. apply live_f_none. rewrite replicate_length. assumption.
  - split; [reflexivity|]. rewrite Nat.sub_diag. apply hov_refl. intros l. unfold F. apply live_f_nil.
  - intros [] h' rg' [-> Hh]. apply HQ. replace (i + n - i) with n in Hh by lia. exact Hh.
  - auto.
Qed.
Lemma wp_ucopy_list d i xs mv (Q : post unit) E h rg :
  (forall k, k < length xs -> exists c, cellat h (d, i + k) = Some c /\ avail c) ->
  (forall h', hov h h' (live_f d i xs) -> Q tt h' rg) -> ((if mv then move_throws tr else copy_throws tr) = true -> E h rg) ->
  wp (ucopy_list tr moved d i xs mv) Q E h rg.
Proof.
  intros Hd HQ HE. unfold ucopy_list.
  set (F := fun k => live_f d i (take k xs)).
  eapply wp_mono; [apply (wp_for_guard (length xs) 0 _ _ (fun k h' rg' => rg' = rg /\ hov h h' (F k)) E)| |].
  - intros q h1 rg1 _ Hq [-> H1]. cbn [Nat.add] in Hq. destruct (lookup_lt_is_Some_2 xs q Hq) as [x Hx]. rewrite Hx.
    assert (Hlt : length (take q xs) = q) by (apply take_length_le; lia).
    destruct (Hd q Hq) as (c & Hc & Hav). assert (Hd1 : cellat h1 (d, i + q) = Some c).
    { rewrite (hov_cell _ _ _ _ H1), Hc. unfold F. rewrite live_f_none; [reflexivity|]. rewrite Hlt. apply Bool.not_true_iff_false. rewrite rng_true. cbn [fst snd]. lia. }
    eapply (wp_construct tr moved _ _ _ x); [exact Hd1|exact Hav|reflexivity| |].
    + intros h2 H2. split; [reflexivity|]. eapply hov_ext; [exact (hov_trans _ _ _ _ _ H1 H2)|]. intros l cl _. unfold F, con_f.
      rewrite (take_S_snoc _ _ _ Hx), live_f_snoc, Hlt. destruct (at1 (d, i + q) l); reflexivity.
    + intros Ht. assert (Et : t_triv tr = false) by (unfold move_throws, copy_throws in Ht; destruct (t_triv tr); [destruct mv; discriminate|reflexivity]).
      apply wp_destroy_range.
      * intros _ m M1 M2. destruct (live_f_some d i (take q xs) (d, m)) as (y & _ & Hy); [apply rng_true; rewrite Hlt; cbn [fst snd]; lia|].
        exists y. rewrite (hov_cell _ _ _ _ H1). destruct (Hd (m - i)) as (c' & Hc' & _); [lia|]. replace (i + (m - i)) with m in Hc' by lia. rewrite Hc'. unfold F. rewrite Hy. reflexivity.
      * intros h2 H2. pose proof (hov_trans _ _ _ _ _ H1 H2) as H3. rewrite (hov_none _ _ _ H3); [apply HE, Ht|]. intros l cl Hcl. unfold dead_f. rewrite Et. cbn [negb]. rewrite andb_true_r.
        destruct (rng d i q l) eqn:E1.
        -- right. pose proof E1 as E1'. apply rng_true in E1'. destruct l as [b m]. cbn [fst snd] in *. destruct E1' as (-> & M1 & M2).
           destruct (Hd (m - i)) as (c' & Hc' & Hav'); [lia|]. replace (i + (m - i)) with m in Hc' by lia. rewrite Hcl in Hc'. injection Hc' as <-.
           destruct Hav' as [|Hraw]; congruence.
        -- left. unfold F. apply live_f_none. rewrite Hlt. assumption.
  - split; [reflexivity|]. apply hov_refl. intros l. unfold F. cbn [take]. apply live_f_nil.
  - intros [] h' rg' [-> Hh]. apply HQ. unfold F in Hh. rewrite take_ge in Hh by lia. exact Hh.
  - auto.
Qed.

(** memmove of cells that are all live *)
Definition inblk h (d i n : nat) : Prop := exists ds, h !! d = Some ds /\ i + n <= length ds.
Lemma wp_memmove d i s j n xs (Q : post unit) E h rg : length xs = n -> inblk h d i n -> inblk h s j n ->
  (forall k (x : V), xs !! k = Some x -> cellat h (s, j + k) = Some (Live x)) ->
  (forall h', hov h h' (live_f d i xs) -> Q tt h' rg) -> wp (memmove (V:=V) d i s j n) Q E h rg.
Proof.
  intros Hn (ds & Ed & Ld) (cs & Es & Ls) Hs HQ o. unfold memmove. cbn [w_heap w_regs w_orc]. rewrite Es, Ed.
  destruct (decide (j + n <= length cs)); [|lia]. destruct (decide (i + n <= length ds)); [|lia]. apply HQ.
  assert (Htk : take n (drop j cs) = Live <$> xs).
  { apply list_eq. intros k. rewrite list_lookup_fmap. destruct (decide (k < n)) as [Hk|Hk].
    - rewrite lookup_take by assumption. rewrite lookup_drop. destruct (lookup_lt_is_Some_2 xs k) as [x Hx]; [lia|]. rewrite Hx. cbn. specialize (Hs k x Hx). apply cellat_inv in Hs as (cs2 & E2 & H2 & _). congruence.
    - rewrite lookup_take_ge by lia. rewrite lookup_ge_None_2 by lia. reflexivity. }
  cbn [w_heap]. rewrite Htk. intros b. destruct (decide (b = d)) as [->|Hne].
  - rewrite Ed, lookup_insert. eexists. split; [reflexivity|]. split; [apply inserts_length|]. intros k Hk. unfold Wp.live_f. destruct (rng d i (length xs) (d, k)) eqn:E1.
    + apply rng_true in E1. cbn [fst snd] in *. rewrite list_lookup_inserts by (rewrite ?fmap_length; lia). rewrite list_lookup_fmap. destruct (lookup_lt_is_Some_2 xs (k - i)) as [x Hx]; [lia|]. rewrite Hx. reflexivity.
    + apply Bool.not_true_iff_false in E1. rewrite rng_true in E1. cbn [fst snd] in E1.
      destruct (decide (k < i)); [apply list_lookup_inserts_lt; lia|]. apply list_lookup_inserts_ge. rewrite fmap_length. lia.
  - rewrite lookup_insert_ne by congruence. destruct (h !! b) as [bs|]; [|reflexivity]. exists bs. repeat split. intros k Hk. rewrite live_f_none; [reflexivity|].
    apply Bool.not_true_iff_false. rewrite rng_true. cbn [fst snd]. intros (E0 & _). contradiction.
Qed.

(** copy or move of cells holding [xs] to available, disjoint cells *)
Lemma wp_ucopy d i s j n xs mv (Q : post unit) E h rg : length xs = n -> (d <> s \/ i + n <= j \/ j + n <= i) ->
  (forall k, k < n -> exists c, cellat h (d, i + k) = Some c /\ avail c) ->
  (forall k (x : V), xs !! k = Some x -> cellat h (s, j + k) = Some (Live x)) ->
  (forall h', hov h h' (orelse (live_f d i xs) (src_f mv s j xs)) -> Q tt h' rg) ->
  (forall h' k, k < n -> (if mv then move_throws tr else copy_throws tr) = true -> hov h h' (src_f mv s j (take k xs)) -> E h' rg) ->
  wp (ucopy tr moved d i s j n mv) Q E h rg.
Proof.
  intros Hn Hdis Hd Hs HQ HE. unfold ucopy. destruct (t_triv tr && t_std tr) eqn:Et.
  - apply andb_prop in Et as [Et _]. destruct (Nat.eqb_spec n 0) as [E0|E0].
    + apply wp_skip, HQ, hov_refl. intros l. assert (xs = []) as -> by (destruct xs; [reflexivity|cbn in Hn; lia]). unfold orelse, Wp.src_f. rewrite live_f_nil. destruct mv; [apply live_f_nil|reflexivity].
    + unfold memcpy. destruct ((d =? s) && (i <? j + n) && (j <? i + n)) eqn:Eo.
      { exfalso. apply andb_prop in Eo as [Eo E2]. apply andb_prop in Eo as [E1 E3]. apply Nat.eqb_eq in E1. apply Nat.ltb_lt in E2, E3. lia. }
      destruct (Hd (n - 1)) as (c & Hc & _); [lia|]. apply cellat_inv in Hc as (ds & Ed & _ & Ld).
      destruct (lookup_lt_is_Some_2 xs (n - 1)) as [y Hy]; [lia|]. pose proof (Hs _ _ Hy) as Hl. apply cellat_inv in Hl as (cs & Es & _ & Ls).
      apply (wp_memmove d i s j n xs); [assumption|exists ds; split; [assumption|lia]|exists cs; split; [assumption|lia]|assumption|].
      intros h' Hh. apply HQ. eapply hov_ext; [exact Hh|]. intros l c0 Hc0. unfold orelse. destruct (live_f d i xs l); [reflexivity|]. unfold Wp.src_f. destruct mv; [|reflexivity].
      destruct (rng s j (length (mvd tr moved <$> xs)) l) eqn:E1; [|rewrite live_f_none by assumption; reflexivity].
      destruct (live_f_some s j (mvd tr moved <$> xs) l E1) as (y1 & Hy1 & ->). rewrite list_lookup_fmap in Hy1. destruct (xs !! (l.2 - j)) as [x|] eqn:Hx; [|discriminate]. injection Hy1 as <-.
      specialize (Hs _ _ Hx). rewrite rng_true in E1. destruct l as [b m]. cbn [fst snd] in *. destruct E1 as (-> & E1 & E2). replace (j + (m - j)) with m in Hs by lia. rewrite Hc0 in Hs. injection Hs as ->. unfold mvd. rewrite Et. reflexivity.
  - subst n. apply (wp_con_loop tr moved d i xs (fun k => Ref (s, j + k)) mv _ _ s j Q E h rg 0); auto.
Qed.

(** relocation: move, then destroy the old objects *)
Definition strong : bool := t_triv tr || t_nomove tr || t_copyable tr.
Lemma wp_relocate_move d i s j n xs (Q : post unit) E h rg : length xs = n -> (d <> s \/ i + n <= j \/ j + n <= i) -> inblk h d i n -> inblk h s j n ->
  (forall k, k < n -> exists c, cellat h (d, i + k) = Some c /\ avail c) ->
  (forall k (x : V), xs !! k = Some x -> cellat h (s, j + k) = Some (Live x)) ->
  (forall h' ys, length ys = n -> (use_memcpy tr = true -> ys = xs) -> hov h h' (orelse (live_f d i xs) (live_f s j ys)) -> Q tt h' rg) ->
  (forall h' ys, length ys = n -> (strong = true -> ys = xs) -> use_memcpy tr = false -> t_nomove tr && t_std tr = false -> hov h h' (live_f s j ys) -> E h' rg) ->
  wp (relocate_move tr moved d i s j n) Q E h rg.
Proof.
  intros Hn Hdis Hd0 Hs0 Hd Hs HQ HE. unfold relocate_move.
  assert (OWN : forall l c, cellat h l = Some c -> match live_f s j xs l with Some c' => c' | None => c end = c).
  { intros l c Hc. destruct (rng s j (length xs) l) eqn:E1; [|rewrite live_f_none by assumption; reflexivity].
    destruct (live_f_some s j xs l E1) as (x & Hx & ->). specialize (Hs _ _ Hx). rewrite rng_true in E1. destruct l as [b m]. cbn [fst snd] in *. destruct E1 as (-> & E1 & E2).
    replace (j + (m - j)) with m in Hs by lia. congruence. }
  assert (SAME : forall h', hov h h' (live_f d i xs) -> hov h h' (orelse (live_f d i xs) (live_f s j xs))).
  { intros h' Hh. eapply hov_ext; [exact Hh|]. intros l c Hc. unfold orelse. destruct (live_f d i xs l); [reflexivity|]. symmetry. apply OWN, Hc. }
  destruct (use_memcpy tr) eqn:Eu.
  - unfold memcpy. destruct ((d =? s) && (i <? j + n) && (j <? i + n)) eqn:Eo.
    { apply andb_prop in Eo as [Eo E2]. apply andb_prop in Eo as [E1 E3]. apply Nat.eqb_eq in E1. apply Nat.ltb_lt in E2, E3. exfalso. lia. }
    apply (wp_memmove d i s j n xs); try assumption. intros h' Hh. apply (HQ h' xs Hn); [reflexivity|]. apply SAME. exact Hh.
  - apply (wp_ucopy d i s j n xs); try assumption.
    + intros h' Hh. destruct (use_move tr) eqn:Em.
      * apply (HQ h' (mvd tr moved <$> xs)); [rewrite fmap_length; assumption|discriminate|]. exact Hh.
      * apply (HQ h' xs Hn); [reflexivity|]. apply SAME. eapply hov_ext; [exact Hh|]. intros l c _. unfold orelse, Wp.src_f. destruct (live_f d i xs l); reflexivity.
    + intros h' k Hk Ht Hh. destruct (use_move tr) eqn:Em.
      * apply (HE h' ((mvd tr moved <$> take k xs) ++ drop k xs)); [rewrite app_length, fmap_length, take_length, drop_length; lia| | | |].
        -- intros St. unfold strong in St. unfold use_move in Em. unfold move_throws in Ht. destruct (t_triv tr), (t_nomove tr), (t_copyable tr), (t_std tr); discriminate.
        -- reflexivity.
        -- unfold move_throws in Ht. destruct (t_nomove tr); [rewrite andb_false_r in Ht; discriminate|reflexivity].
        -- eapply hov_ext; [exact Hh|]. intros l c Hc. unfold Wp.src_f, Wp.live_f. rewrite app_length, !fmap_length, take_length, drop_length.
           replace (k `min` length xs) with k by lia. replace (k + (length xs - k)) with (length xs) by lia. specialize (OWN l c Hc). unfold Wp.live_f in OWN.
           destruct (rng s j k l) eqn:E1.
           ++ assert (E1' := E1). apply rng_true in E1'. assert (E2 : rng s j (length xs) l = true) by (apply rng_true; lia). rewrite E2. rewrite lookup_app_l by (rewrite fmap_length, take_length; lia). reflexivity.
           ++ destruct (rng s j (length xs) l) eqn:E2; [|reflexivity]. assert (E2' := E2). apply rng_true in E2'. apply Bool.not_true_iff_false in E1. rewrite rng_true in E1.
              rewrite lookup_app_r by (rewrite fmap_length, take_length; lia). rewrite fmap_length, take_length, lookup_drop. replace (k + (l.2 - j - k `min` length xs)) with (l.2 - j) by lia. symmetry. exact OWN.
      * apply (HE h' xs Hn); [auto|reflexivity| |].
        -- unfold use_move in Em. destruct (t_nomove tr && t_std tr); [discriminate|reflexivity].
        -- eapply hov_ext; [exact Hh|]. intros l c Hc. unfold Wp.src_f. symmetry. apply OWN, Hc.
Qed.
Lemma wp_relocate_done b i n (Q : post unit) E h rg :
  (t_triv tr = false -> forall k, i <= k -> k < i + n -> exists v, cellat h (b, k) = Some (Live v)) ->
  (forall h', hov h h' (dead_f b i n) -> Q tt h' rg) -> wp (relocate_done tr b i n) Q E h rg.
Proof.
  intros Hl HQ. unfold relocate_done. destruct (use_memcpy tr) eqn:Eu.
  - apply wp_skip, HQ, hov_refl. intros l. unfold Wp.dead_f. apply andb_prop in Eu as [-> _]. rewrite andb_false_r. reflexivity.
  - apply wp_destroy_range; assumption.
Qed.

(** ** blocks *)
Lemma wp_allocate n (Q : post nat) E h rg :
  (forall b, (N.of_nat n * t_size tr <= t_max tr)%N -> h !! b = None -> Q b (<[b := replicate n Raw]> h) rg) -> E h rg -> wp (allocate tr n) Q E h rg.
Proof.
  intros HQ HE o. unfold allocate. destruct (N.ltb_spec (t_max tr) (N.of_nat n * t_size tr)); [exact HE|].
  assert (F : h !! fresh ((map_to_list h).*1) = None).
  { pose proof (infinite_is_fresh ((map_to_list h).*1)) as Hf. destruct (h !! fresh ((map_to_list h).*1)) as [cs|] eqn:E1; [|reflexivity].
    exfalso. apply Hf. apply elem_of_list_fmap. exists (fresh ((map_to_list h).*1), cs). split; [reflexivity|]. apply elem_of_map_to_list. assumption. }
  unfold may_throw. cbn [w_orc]. destruct o as [|[] o]; cbn [w_heap w_regs w_orc]; [apply HQ; assumption|exact HE|apply HQ; assumption].
Qed.
Lemma wp_deallocate b n cs (Q : post unit) E h rg : h !! b = Some cs -> length cs = n -> (forall i c, cs !! i = Some c -> avail c) -> Q tt (delete b h) rg -> wp (deallocate tr b n) Q E h rg.
Proof.
  intros Hb Hl Ha HQ o. unfold deallocate. cbn [w_heap w_regs w_orc]. rewrite Hb. rewrite (proj2 (Nat.eqb_eq _ _) Hl). cbn [andb].
  destruct (t_triv tr) eqn:Et; [exact HQ|]. cbn [orb]. replace (forallb is_raw cs) with true; [exact HQ|]. symmetry. apply forallb_forall. intros c Hc.
  apply elem_of_list_In, elem_of_list_lookup in Hc as [i Hi]. destruct (Ha i c Hi) as [|Hr]; [congruence|subst c; reflexivity].
Qed.

(** ** from cells back to blocks *)
Lemma hov_one b cs hf h' f : hov (<[b := cs]> hf) h' f -> (forall l, l.1 <> b -> f l = None) ->
  exists cs', h' = <[b := cs']> hf /\ length cs' = length cs /\ forall i, i < length cs -> cs' !! i = match f (b, i) with Some c => Some c | None => cs !! i end.
Proof.
  intros H Hf. pose proof (H b) as Hb. rewrite lookup_insert in Hb. destruct Hb as (cs' & E1 & L1 & C1). exists cs'. split; [|auto].
  apply map_eq. intros b'. destruct (decide (b' = b)) as [->|Hne]; [rewrite lookup_insert; assumption|]. rewrite lookup_insert_ne by congruence.
  specialize (H b'). rewrite lookup_insert_ne in H by congruence. destruct (hf !! b') as [cs0|]; [|assumption]. destruct H as (cs1 & E2 & L2 & C2). rewrite E2. f_equal.
  apply list_eq. intros i. destruct (decide (i < length cs0)) as [Hi|Hi]; [rewrite C2 by assumption; rewrite Hf by assumption; reflexivity|]. rewrite !lookup_ge_None_2 by lia. reflexivity.
Qed.
Lemma hov_two b1 b2 cs1 cs2 hf h' f : b1 <> b2 -> hov (<[b1 := cs1]> (<[b2 := cs2]> hf)) h' f -> (forall l, l.1 <> b1 -> l.1 <> b2 -> f l = None) ->
  exists cs1' cs2', h' = <[b1 := cs1']> (<[b2 := cs2']> hf) /\ length cs1' = length cs1 /\ length cs2' = length cs2 /\
    (forall i, i < length cs1 -> cs1' !! i = match f (b1, i) with Some c => Some c | None => cs1 !! i end) /\
    (forall i, i < length cs2 -> cs2' !! i = match f (b2, i) with Some c => Some c | None => cs2 !! i end).
Proof.
  intros Hb12 H Hf. pose proof (H b1) as Hb1. rewrite lookup_insert in Hb1. destruct Hb1 as (cs1' & E1 & L1 & C1).
  pose proof (H b2) as Hb2. rewrite lookup_insert_ne, lookup_insert in Hb2 by congruence. destruct Hb2 as (cs2' & E2 & L2 & C2). exists cs1', cs2'. split; [|auto].
  apply map_eq. intros b'. destruct (decide (b' = b1)) as [->|Hne]; [rewrite lookup_insert; assumption|]. rewrite lookup_insert_ne by congruence.
  destruct (decide (b' = b2)) as [->|Hne2]; [rewrite lookup_insert; assumption|]. rewrite lookup_insert_ne by congruence.
  specialize (H b'). rewrite !lookup_insert_ne in H by congruence. destruct (hf !! b') as [cs0|]; [|assumption]. destruct H as (cs3 & E3 & L3 & C3). rewrite E3. f_equal.
  apply list_eq. intros i. destruct (decide (i < length cs0)) as [Hi|Hi]; [rewrite C3 by assumption; rewrite Hf by assumption; reflexivity|]. rewrite !lookup_ge_None_2 by lia. reflexivity.
Qed.
End Ranges.
