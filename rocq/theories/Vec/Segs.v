(** The same loops, as rewriting of the list of cells of a block. *)
From stdpp Require Import gmap list infinite fin_map_dom.
From Coq Require Import NArith Lia.
From Verif.Common Require Import Word.
From Verif.Vec Require Import Model Wp Ranges.
Local Open Scope nat_scope.
Set Default Proof Using "Type".

Section Segs.
Context {V : Type} (tr : traits) (moved : V -> V) (dflt : V).
Notation heap := (gmap nat (list (@cell V))).
Notation M := (@M V).
Implicit Types (mv : bool) (xs ys : list V) (hf h : heap) (rg : list vec) (E : heap -> list vec -> Prop) (A B C : list (@cell V)) (a : @arg V).
Notation post A := (A -> heap -> list vec -> Prop).
Notation "x <- m ;; k" := (bind m (fun x => k)) (at level 100, m at next level, right associativity).
Notation "m ;;; k" := (bind m (fun _ => k)) (at level 100, right associativity).
Notation live_f := (live_f (V := V)).
Notation hov := (hov (V := V)).
Notation src_f := (src_f tr moved).
Notation dead_f := (dead_f (V := V) tr).
Notation avail := (avail (V := V) tr).
Notation "'LV' xs" := (@Live V <$> (xs : list V)) (at level 30).

Lemma app3_lookup {X} (A B C : list X) k : (A ++ B ++ C) !! k = if decide (k < length A) then A !! k else if decide (k < length A + length B) then B !! (k - length A) else C !! (k - length A - length B).
Proof.
  destruct (decide (k < length A)); [apply lookup_app_l; assumption|]. rewrite lookup_app_r by lia.
  destruct (decide (k < length A + length B)); [apply lookup_app_l; lia|]. rewrite lookup_app_r by lia. reflexivity.
Qed.
Lemma seg_eq {X} (A B C D cs' : list X) : length cs' = length (A ++ B ++ C) -> length D = length B ->
  (forall i, i < length (A ++ B ++ C) -> cs' !! i = if decide (length A <= i /\ i < length A + length B) then D !! (i - length A) else (A ++ B ++ C) !! i) ->
  cs' = A ++ D ++ C.
Proof.
  intros L1 L2 H. apply list_eq. intros i. destruct (decide (i < length (A ++ B ++ C))) as [Hi|Hi].
  - rewrite H by assumption. rewrite !app3_lookup. rewrite L2. destruct (decide (i < length A)).
    + destruct (decide (length A <= i /\ i < length A + length B)); [lia|]. reflexivity.
    + destruct (decide (i < length A + length B)); destruct (decide (length A <= i /\ i < length A + length B)); try lia; reflexivity.
  - rewrite !lookup_ge_None_2; [reflexivity| |]; rewrite !app_length in *; lia.
Qed.
Lemma rngd b i n k : rng b i n (b, k) = if decide (i <= k /\ k < i + n) then true else false.
Proof. unfold rng. cbn [fst snd]. rewrite Nat.eqb_refl. cbn [andb]. destruct (Nat.leb_spec i k), (Nat.ltb_spec k (i + n)); destruct (decide (i <= k /\ k < i + n)); try reflexivity; lia. Qed.
Lemma rng_other b i n l : l.1 <> b -> rng b i n l = false.
Proof. intros H. unfold rng. destruct (Nat.eqb_spec l.1 b); [contradiction|reflexivity]. Qed.

Lemma seg_live b i A B C xs hf h' : hov (<[b := A ++ B ++ C]> hf) h' (live_f b i xs) -> length A = i -> length B = length xs -> h' = <[b := A ++ LV xs ++ C]> hf.
Proof.
  intros H LA LB. apply hov_one in H as (cs' & -> & L & Hc).
  - f_equal. apply (seg_eq A B C (LV xs)); [assumption|rewrite fmap_length; congruence|]. intros k Hk. rewrite Hc by assumption. unfold Wp.live_f. rewrite rngd. subst i. rewrite LB.
    destruct (decide (length A <= k /\ k < length A + length xs)); [|reflexivity]. rewrite list_lookup_fmap. cbn [snd]. destruct (lookup_lt_is_Some_2 xs (k - length A)) as [x Hx]; [lia|]. rewrite Hx. reflexivity.
  - intros l Hl. apply live_f_none. apply rng_other. assumption.
Qed.
Lemma seg_one b i A c C x hf h' : hov (<[b := A ++ c :: C]> hf) h' (fun l => if at1 (b, i) l then Some (Live x) else None) -> length A = i -> h' = <[b := A ++ Live x :: C]> hf.
Proof.
  intros H LA. apply (seg_live b i A [c] C [x]); [|assumption|reflexivity]. eapply hov_ext; [exact H|]. intros l cl _.
  change [x] with ([] ++ [x]). rewrite live_f_snoc. cbn [length]. rewrite Nat.add_0_r. rewrite live_f_nil. reflexivity.
Qed.
(** what destruction leaves of cells *)
Definition kill B : list (@cell V) := if t_triv tr then B else replicate (length B) Raw.
Lemma kill_length B : length (kill B) = length B.
Proof. unfold kill. destruct (t_triv tr); [reflexivity|apply replicate_length]. Qed.
Lemma kill_avail B : Forall avail (kill B).
Proof. unfold kill. destruct (t_triv tr) eqn:Et; [apply Forall_true; intros; left; assumption|]. apply Forall_replicate. right. reflexivity. Qed.
Lemma raw_avail n : Forall avail (replicate n Raw).
Proof. apply Forall_replicate. right. reflexivity. Qed.
Lemma seg_dead b i n A B C hf h' : hov (<[b := A ++ B ++ C]> hf) h' (dead_f b i n) -> length A = i -> length B = n -> h' = <[b := A ++ kill B ++ C]> hf.
Proof.
  intros H LA LB. apply hov_one in H as (cs' & -> & L & Hc).
  - f_equal. apply (seg_eq A B C (kill B)); [assumption|apply kill_length|]. intros k Hk. rewrite Hc by assumption. unfold Wp.dead_f. rewrite rngd. subst i n.
    destruct (decide (length A <= k /\ k < length A + length B)); [|reflexivity]. unfold kill. cbn [andb]. destruct (t_triv tr); cbn [negb].
    + rewrite app3_lookup. destruct (decide (k < length A)); [lia|]. destruct (decide (k < length A + length B)); [reflexivity|lia].
    + rewrite lookup_replicate_2 by lia. reflexivity.
  - intros l Hl. unfold Wp.dead_f. rewrite rng_other by assumption. reflexivity.
Qed.
Lemma seg_two nb b i j A B C A' B' C' xs ys hf h' : nb <> b -> hov (<[nb := A ++ B ++ C]> (<[b := A' ++ B' ++ C']> hf)) h' (orelse (live_f nb i xs) (live_f b j ys)) ->
  length A = i -> length B = length xs -> length A' = j -> length B' = length ys -> h' = <[nb := A ++ LV xs ++ C]> (<[b := A' ++ LV ys ++ C']> hf).
Proof.
  intros Hne H LA LB LA' LB'. apply hov_two in H as (cs1 & cs2 & -> & L1 & L2 & C1 & C2); [|assumption|].
  - f_equal; [|f_equal].
    + apply (seg_eq A B C (LV xs)); [assumption|rewrite fmap_length; congruence|]. intros k Hk. rewrite C1 by assumption. unfold orelse. rewrite (live_f_none b j ys) by (apply rng_other; cbn [fst]; congruence).
      unfold Wp.live_f. rewrite rngd. subst i. rewrite LB.
      destruct (decide (length A <= k /\ k < length A + length xs)); [|reflexivity]. rewrite list_lookup_fmap. cbn [snd]. destruct (lookup_lt_is_Some_2 xs (k - length A)) as [x Hx]; [lia|]. rewrite Hx. reflexivity.
    + apply (seg_eq A' B' C' (LV ys)); [assumption|rewrite fmap_length; congruence|]. intros k Hk. rewrite C2 by assumption. unfold orelse. rewrite (live_f_none nb i xs) by (apply rng_other; cbn [fst]; congruence).
      unfold Wp.live_f. rewrite rngd. subst j. rewrite LB'.
      destruct (decide (length A' <= k /\ k < length A' + length ys)); [|reflexivity]. rewrite list_lookup_fmap. cbn [snd]. destruct (lookup_lt_is_Some_2 ys (k - length A')) as [x Hx]; [lia|]. rewrite Hx. reflexivity.
  - intros l H1 H2. unfold orelse. rewrite !live_f_none; [reflexivity| |]; apply rng_other; assumption.
Qed.

(** facts about cells of segments *)
Lemma cell_seg b A B C hf k : k < length B -> cellat (<[b := A ++ B ++ C]> hf) (b, length A + k) = B !! k.
Proof.
  intros Hk. unfold cellat. cbn [fst snd]. rewrite lookup_insert. rewrite app3_lookup. destruct (decide (length A + k < length A)); [lia|]. destruct (decide (length A + k < length A + length B)); [|lia]. f_equal. lia.
Qed.
Lemma cell_avail b A B C hf i n : length A = i -> length B = n -> Forall avail B -> forall k, k < n -> exists c, cellat (<[b := A ++ B ++ C]> hf) (b, i + k) = Some c /\ avail c.
Proof.
  intros <- <- Hf k Hk. rewrite cell_seg by assumption. destruct (lookup_lt_is_Some_2 B k Hk) as [c Hc]. exists c. split; [assumption|]. exact (Forall_lookup_1 _ _ _ _ Hf Hc).
Qed.
Lemma cell_live b A xs C hf i : length A = i -> forall k x, xs !! k = Some x -> cellat (<[b := A ++ LV xs ++ C]> hf) (b, i + k) = Some (Live x).
Proof. intros <- k x Hx. rewrite cell_seg by (rewrite fmap_length; apply lookup_lt_Some in Hx; assumption). rewrite list_lookup_fmap, Hx. reflexivity. Qed.
Lemma cell_live' b A xs C hf i : length A = i -> forall k, i <= k -> k < i + length xs -> exists x, cellat (<[b := A ++ LV xs ++ C]> hf) (b, k) = Some (Live x).
Proof.
  intros LA k K1 K2. destruct (lookup_lt_is_Some_2 xs (k - i)) as [x Hx]; [lia|]. exists x. replace k with (i + (k - i)) by lia. apply cell_live; assumption.
Qed.
Lemma cell_other b cs hf l : l.1 <> b -> cellat (<[b := cs]> hf) l = cellat hf l.
Proof. intros H. unfold cellat. rewrite lookup_insert_ne by congruence. reflexivity. Qed.
Lemma inblk_ins b A B C hf n : n = length B -> inblk (<[b := A ++ B ++ C]> hf) b (length A) n.
Proof. intros ->. eexists. rewrite lookup_insert. split; [reflexivity|]. rewrite !app_length. lia. Qed.

(** ** the loops *)
Lemma sg_ufill b i n A B C a x (Q : post unit) E hf rg : length A = i -> length B = n -> Forall avail B ->
  aval (<[b := A ++ B ++ C]> hf) a x -> (forall l, a = Ref l -> rng b i n l = false) ->
  Q tt (<[b := A ++ LV (replicate n x) ++ C]> hf) rg -> (copy_throws tr = true -> E (<[b := A ++ B ++ C]> hf) rg) ->
  wp (ufill tr moved b i n a) Q E (<[b := A ++ B ++ C]> hf) rg.
Proof.
  intros LA LB Hf Ha Hl HQ HE. eapply wp_ufill; [apply cell_avail; assumption|exact Ha|exact Hl| |assumption].
  intros h' Hh. apply seg_live in Hh; [subst h'; assumption|assumption|rewrite replicate_length; assumption].
Qed.
Lemma sg_ufill_default b i n A B C (Q : post unit) E hf rg : length A = i -> length B = n -> Forall avail B ->
  Q tt (<[b := A ++ LV (replicate n dflt) ++ C]> hf) rg -> (copy_throws tr = true -> E (<[b := A ++ B ++ C]> hf) rg) ->
  wp (ufill_default tr dflt b i n) Q E (<[b := A ++ B ++ C]> hf) rg.
Proof.
  intros LA LB Hf HQ HE. eapply wp_ufill_default; [apply cell_avail; assumption| |assumption].
  intros h' Hh. apply seg_live in Hh; [subst h'; assumption|assumption|rewrite replicate_length; assumption].
Qed.
Lemma sg_ucopy_list b i xs mv A B C (Q : post unit) E hf rg : length A = i -> length B = length xs -> Forall avail B ->
  Q tt (<[b := A ++ LV xs ++ C]> hf) rg -> ((if mv then move_throws tr else copy_throws tr) = true -> E (<[b := A ++ B ++ C]> hf) rg) ->
  wp (ucopy_list tr moved b i xs mv) Q E (<[b := A ++ B ++ C]> hf) rg.
Proof.
  intros LA LB Hf HQ HE. eapply wp_ucopy_list; [apply cell_avail; assumption| |assumption].
  intros h' Hh. apply seg_live in Hh; [subst h'; assumption|assumption|assumption].
Qed.
Lemma sg_destroy_range b i n A xs C (Q : post unit) E hf rg : length A = i -> length xs = n ->
  (forall B, length B = n -> Forall avail B -> Q tt (<[b := A ++ B ++ C]> hf) rg) ->
  wp (destroy_range tr b i n) Q E (<[b := A ++ LV xs ++ C]> hf) rg.
Proof.
  intros LA LB HQ. apply wp_destroy_range.
  - intros _ k K1 K2. apply cell_live' with (i := i); [assumption|assumption|lia].
  - intros h' Hh. apply seg_dead in Hh; [|assumption|rewrite fmap_length; assumption]. subst h'. apply HQ; [rewrite kill_length, fmap_length; assumption|apply kill_avail].
Qed.
Lemma sg_relocate_done b i n A xs C (Q : post unit) E hf rg : length A = i -> length xs = n ->
  (forall B, length B = n -> Forall avail B -> Q tt (<[b := A ++ B ++ C]> hf) rg) ->
  wp (relocate_done tr b i n) Q E (<[b := A ++ LV xs ++ C]> hf) rg.
Proof.
  intros LA LB HQ. apply wp_relocate_done.
  - intros _ k K1 K2. apply cell_live' with (i := i); [assumption|assumption|lia].
  - intros h' Hh. apply seg_dead in Hh; [|assumption|rewrite fmap_length; assumption]. subst h'. apply HQ; [rewrite kill_length, fmap_length; assumption|apply kill_avail].
Qed.
Lemma sg_destroy b i A x C (Q : post unit) E hf rg : length A = i ->
  (forall c, avail c -> Q tt (<[b := A ++ c :: C]> hf) rg) ->
  wp (destroy tr (b, i)) Q E (<[b := A ++ Live x :: C]> hf) rg.
Proof.
  intros LA HQ. apply wp_destroy; cbn [fst snd].
  - intros _. exists x. replace i with (i + 0) by lia. apply (cell_live b A [x] C hf i LA). reflexivity.
  - intros h' Hh. change (Live x :: C) with (LV [x] ++ C) in Hh. apply seg_dead in Hh; [|assumption|reflexivity]. subst h'.
    pose proof (kill_avail (LV [x])) as Ha. pose proof (kill_length (LV [x])) as Hl. destruct (kill (LV [x])) as [|c [|]]; try discriminate. apply HQ. inversion Ha; assumption.
Qed.
(** constructing one object; moves only take objects from outside *)
Lemma sg_construct b i A c C a mv x (Q : post unit) E hf rg : length A = i -> avail c -> aval (<[b := A ++ c :: C]> hf) a x -> (mv = true -> exists y, a = Val y) ->
  Q tt (<[b := A ++ Live x :: C]> hf) rg -> ((if mv then move_throws tr else copy_throws tr) = true -> E (<[b := A ++ c :: C]> hf) rg) ->
  wp (construct tr moved (b, i) a mv) Q E (<[b := A ++ c :: C]> hf) rg.
Proof.
  intros LA Hav Ha Hm HQ HE. eapply wp_construct; [|exact Hav|exact Ha| |exact HE].
  - replace i with (length A + 0) by lia. apply (cell_seg b A [c] C hf 0). cbn [length]. lia.
  - intros h' Hh. assert (hov (<[b := A ++ c :: C]> hf) h' (fun l => if at1 (b, i) l then Some (Live x) else None)) as H1.
    { eapply hov_ext; [exact Hh|]. intros l cl _. unfold con_f. destruct (at1 (b, i) l); [reflexivity|]. unfold asrc. destruct a; [reflexivity|]. destruct mv; [destruct (Hm eq_refl); discriminate|reflexivity]. }
    apply seg_one in H1; [subst h'; assumption|assumption].
Qed.
(** from block to block *)
Lemma sg_relocate_move nb b i j n A B C A' xs C' (Q : post unit) E hf rg : nb <> b -> length A = i -> length B = n -> Forall avail B -> length A' = j -> length xs = n ->
  (forall ys, length ys = n -> (use_memcpy tr = true -> ys = xs) -> Q tt (<[nb := A ++ LV xs ++ C]> (<[b := A' ++ LV ys ++ C']> hf)) rg) ->
  (forall ys, length ys = n -> (strong tr = true -> ys = xs) -> use_memcpy tr = false -> t_nomove tr && t_std tr = false -> E (<[nb := A ++ B ++ C]> (<[b := A' ++ LV ys ++ C']> hf)) rg) ->
  wp (relocate_move tr moved nb i b j n) Q E (<[nb := A ++ B ++ C]> (<[b := A' ++ LV xs ++ C']> hf)) rg.
Proof.
  intros Hne LA LB Hf LA' Lx HQ HE.
  assert (Ls : forall k x, xs !! k = Some x -> cellat (<[nb := A ++ B ++ C]> (<[b := A' ++ LV xs ++ C']> hf)) (b, j + k) = Some (Live x)).
  { intros k x Hx. rewrite cell_other by (cbn [fst]; congruence). apply cell_live; assumption. }
  eapply (wp_relocate_move tr moved nb i b j n xs).
  - assumption.
  - left. assumption.
  - subst i. apply inblk_ins. congruence.
  - eexists. rewrite lookup_insert_ne, lookup_insert by congruence. split; [reflexivity|]. rewrite !app_length, fmap_length. lia.
  - apply cell_avail; assumption.
  - exact Ls.
  - intros h' ys Ly Hu Hh. apply seg_two in Hh; [subst h'; apply HQ; assumption|assumption|assumption|congruence|assumption|rewrite fmap_length; congruence].
  - intros h' ys Ly St E1 E2 Hh. assert (h' = <[nb := A ++ B ++ C]> (<[b := A' ++ LV ys ++ C']> hf)) as ->; [|apply HE; assumption].
    rewrite insert_commute in Hh by congruence. apply seg_live in Hh; [|assumption|rewrite fmap_length; congruence]. subst h'. apply insert_commute. congruence.
Qed.
Lemma sg_ucopy_from nb b i j n A B C A' xs C' hf (Q : post unit) E rg : nb <> b -> length A = i -> length B = n -> Forall avail B -> length A' = j -> length xs = n ->
  Q tt (<[nb := A ++ LV xs ++ C]> (<[b := A' ++ LV xs ++ C']> hf)) rg ->
  (copy_throws tr = true -> E (<[nb := A ++ B ++ C]> (<[b := A' ++ LV xs ++ C']> hf)) rg) ->
  wp (ucopy tr moved nb i b j n false) Q E (<[nb := A ++ B ++ C]> (<[b := A' ++ LV xs ++ C']> hf)) rg.
Proof.
  intros Hne LA LB Hf LA' Lx HQ HE.
  assert (Ls : forall k x, xs !! k = Some x -> cellat (<[nb := A ++ B ++ C]> (<[b := A' ++ LV xs ++ C']> hf)) (b, j + k) = Some (Live x)).
  { intros k x Hx. rewrite cell_other by (cbn [fst]; congruence). apply cell_live; assumption. }
  eapply (wp_ucopy tr moved nb i b j n xs false); [assumption|left; assumption|apply cell_avail; assumption|exact Ls| |].
  - intros h' Hh. assert (H1 : hov (<[nb:=A ++ B ++ C]> (<[b:=A' ++ LV xs ++ C']> hf)) h' (live_f nb i xs)).
    { eapply hov_ext; [exact Hh|]. intros l c _. unfold orelse, Wp.src_f. destruct (live_f nb i xs l); reflexivity. }
    apply seg_live in H1; [subst h'; assumption|assumption|congruence].
  - intros h' k Hk Ht Hh. apply hov_none in Hh; [subst h'; auto|]. intros l c _. left. reflexivity.
Qed.

(** ** inside one block *)
Lemma hov_det h h1 h2 f : hov h h1 f -> hov h h2 f -> h1 = h2.
Proof.
  intros H1 H2. apply map_eq. intros b. specialize (H1 b). specialize (H2 b). destruct (h !! b) as [cs|]; [|congruence].
  destruct H1 as (c1 & -> & L1 & C1), H2 as (c2 & -> & L2 & C2). f_equal. apply list_eq. intros i. destruct (decide (i < length cs)); [rewrite C1, C2 by assumption; reflexivity|]. rewrite !lookup_ge_None_2 by lia. reflexivity.
Qed.
Lemma seg_live_mk b A B C xs hf : length B = length xs -> hov (<[b := A ++ B ++ C]> hf) (<[b := A ++ LV xs ++ C]> hf) (live_f b (length A) xs).
Proof.
  intros LB b'. destruct (decide (b' = b)) as [->|Hne].
  - rewrite !lookup_insert. eexists. split; [reflexivity|]. split; [rewrite !app_length, fmap_length; lia|]. intros k Hk. unfold Wp.live_f. rewrite rngd. rewrite !app3_lookup, fmap_length, LB. cbn [snd].
    destruct (decide (length A <= k /\ k < length A + length xs)) as [K|K].
    + destruct (decide (k < length A)); [lia|]. destruct (decide (k < length A + length xs)); [|lia]. rewrite list_lookup_fmap. destruct (lookup_lt_is_Some_2 xs (k - length A)) as [x Hx]; [lia|]. rewrite Hx. reflexivity.
    + destruct (decide (k < length A)); [reflexivity|]. destruct (decide (k < length A + length xs)); [lia|]. reflexivity.
  - rewrite !lookup_insert_ne by congruence. destruct (hf !! b') as [cs|]; [|reflexivity]. exists cs. split; [reflexivity|]. split; [reflexivity|]. intros k Hk. rewrite live_f_none; [reflexivity|]. apply rng_other. cbn [fst]. congruence.
Qed.
(** the source before the target *)
Lemma seg_two_fwd b i j A B G D C xs ys hf h' : hov (<[b := A ++ B ++ G ++ D ++ C]> hf) h' (orelse (live_f b i xs) (live_f b j ys)) ->
  length A = j -> length B = length ys -> length A + length B + length G = i -> length D = length xs -> h' = <[b := A ++ LV ys ++ G ++ LV xs ++ C]> hf.
Proof.
  intros H <- LB <- LD. eapply hov_det; [exact H|].
  pose proof (seg_live_mk b A B (G ++ D ++ C) ys hf LB) as H1. pose proof (seg_live_mk b (A ++ LV ys ++ G) D C xs hf LD) as H2.
  rewrite <- !app_assoc in H2. rewrite !app_length, fmap_length in H2. eapply hov_ext; [exact (hov_trans _ _ _ _ _ H1 H2)|]. intros l c _. unfold orelse.
  replace (length A + length B + length G) with (length A + (length ys + length G)) by lia. reflexivity.
Qed.
(** the target before the source *)
Lemma seg_two_bwd b i j A B G D C xs ys hf h' : hov (<[b := A ++ B ++ G ++ D ++ C]> hf) h' (orelse (live_f b i xs) (live_f b j ys)) ->
  length A = i -> length B = length xs -> length A + length B + length G = j -> length D = length ys -> h' = <[b := A ++ LV xs ++ G ++ LV ys ++ C]> hf.
Proof.
  intros H <- LB <- LD. eapply hov_det; [exact H|].
  pose proof (seg_live_mk b A B (G ++ D ++ C) xs hf LB) as H1. pose proof (seg_live_mk b (A ++ LV xs ++ G) D C ys hf LD) as H2.
  rewrite <- !app_assoc in H2. rewrite !app_length, fmap_length in H2. eapply hov_ext; [exact (hov_trans _ _ _ _ _ H1 H2)|]. intros l c _. unfold orelse.
  replace (length A + length B + length G) with (length A + (length xs + length G)) by lia.
  destruct (live_f b (length A + (length xs + length G)) ys l) eqn:E1; destruct (live_f b (length A) xs l) eqn:E2; try reflexivity. exfalso.
  unfold Wp.live_f in E1, E2. destruct (rng b (length A) (length xs) l) eqn:R1; [|discriminate]. destruct (rng b (length A + (length xs + length G)) (length ys) l) eqn:R2; [|discriminate].
  apply rng_true in R1, R2. lia.
Qed.
Lemma sg_ucopy_in b i j n A xs G B C (Q : post unit) E hf rg : length A = j -> length xs = n -> j + n + length G = i -> length B = n -> Forall avail B ->
  (forall ys, length ys = n -> Q tt (<[b := A ++ LV ys ++ G ++ LV xs ++ C]> hf) rg) ->
  (forall ys, length ys = n -> E (<[b := A ++ LV ys ++ G ++ B ++ C]> hf) rg) ->
  wp (ucopy tr moved b i b j n true) Q E (<[b := A ++ LV xs ++ G ++ B ++ C]> hf) rg.
Proof.
  intros LA Lx Li LB Hf HQ HE.
  assert (Ls : forall k x, xs !! k = Some x -> cellat (<[b := A ++ LV xs ++ G ++ B ++ C]> hf) (b, j + k) = Some (Live x)) by (apply cell_live; assumption).
  assert (Lj : length (A ++ LV xs ++ G) = i) by (rewrite !app_length, fmap_length; lia).
  eapply (wp_ucopy tr moved b i b j n xs true); [assumption|right; right; lia| |exact Ls| |].
  - replace (A ++ LV xs ++ G ++ B ++ C) with ((A ++ LV xs ++ G) ++ B ++ C) by (rewrite <- !app_assoc; reflexivity). apply cell_avail; assumption.
  - intros h' Hh. unfold Wp.src_f in Hh. apply (seg_two_fwd b i j A (LV xs) G B C xs (mvd tr moved <$> xs)) in Hh; [|assumption|rewrite !fmap_length; reflexivity|rewrite fmap_length; lia|congruence].
    subst h'. apply HQ. rewrite fmap_length. assumption.
  - intros h' k Hk Ht Hh. unfold Wp.src_f in Hh.
    assert (Hs : xs = take k xs ++ drop k xs) by (symmetry; apply take_drop).
    assert (Hh1 : hov (<[b := A ++ LV (take k xs) ++ (LV (drop k xs) ++ G ++ B ++ C)]> hf) h' (live_f b j (mvd tr moved <$> take k xs))).
    { replace (A ++ LV take k xs ++ LV drop k xs ++ G ++ B ++ C) with (A ++ LV xs ++ G ++ B ++ C); [exact Hh|]. rewrite Hs at 1. rewrite fmap_app, <- app_assoc. reflexivity. }
    apply seg_live in Hh1; [|assumption|rewrite !fmap_length; reflexivity]. subst h'.
    replace (A ++ LV (mvd tr moved <$> take k xs) ++ LV drop k xs ++ G ++ B ++ C) with (A ++ LV ((mvd tr moved <$> take k xs) ++ drop k xs) ++ G ++ B ++ C) by (rewrite fmap_app, <- app_assoc; reflexivity).
    apply HE. rewrite app_length, fmap_length, take_length, drop_length. lia.
Qed.
Lemma sg_relocate_in b i j n A xs G B C (Q : post unit) E hf rg : length A = j -> length xs = n -> j + n + length G = i -> length B = n -> Forall avail B ->
  (forall ys, length ys = n -> Q tt (<[b := A ++ LV ys ++ G ++ LV xs ++ C]> hf) rg) ->
  (forall ys, length ys = n -> E (<[b := A ++ LV ys ++ G ++ B ++ C]> hf) rg) ->
  wp (relocate_move tr moved b i b j n) Q E (<[b := A ++ LV xs ++ G ++ B ++ C]> hf) rg.
Proof.
  intros LA Lx Li LB Hf HQ HE.
  assert (Ls : forall k x, xs !! k = Some x -> cellat (<[b := A ++ LV xs ++ G ++ B ++ C]> hf) (b, j + k) = Some (Live x)) by (apply cell_live; assumption).
  assert (Lj : length (A ++ LV xs ++ G) = i) by (rewrite !app_length, fmap_length; lia).
  eapply (wp_relocate_move tr moved b i b j n xs); [assumption|right; right; lia| | | |exact Ls| |].
  - replace (A ++ LV xs ++ G ++ B ++ C) with ((A ++ LV xs ++ G) ++ B ++ C) by (rewrite <- !app_assoc; reflexivity). rewrite <- Lj. apply inblk_ins. congruence.
  - rewrite <- LA. apply inblk_ins. rewrite fmap_length. congruence.
  - replace (A ++ LV xs ++ G ++ B ++ C) with ((A ++ LV xs ++ G) ++ B ++ C) by (rewrite <- !app_assoc; reflexivity). apply cell_avail; assumption.
  - intros h' ys Ly _ Hh. apply seg_two_fwd in Hh; [|assumption|rewrite fmap_length; congruence|rewrite fmap_length; lia|congruence]. subst h'. apply HQ. assumption.
  - intros h' ys Ly _ _ _ Hh. apply seg_live in Hh; [|assumption|rewrite fmap_length; congruence]. subst h'. apply HE. assumption.
Qed.
(** one assignment of an object outside the target's cell, without moving *)
Lemma sg_assign b i A y C a x (Q : post unit) E hf rg : length A = i -> aval (<[b := A ++ Live y :: C]> hf) a x ->
  Q tt (<[b := A ++ Live x :: C]> hf) rg -> E (<[b := A ++ Live y :: C]> hf) rg ->
  wp (assign_to tr moved (b, i) a false) Q E (<[b := A ++ Live y :: C]> hf) rg.
Proof.
  intros LA Ha HQ HE. eapply wp_assign_to; [|right; exists y; reflexivity|exact Ha| |intros _; exact HE].
  - replace i with (length A + 0) by lia. apply (cell_seg b A [Live y] C hf 0). cbn [length]. lia.
  - intros h' Hh. assert (hov (<[b := A ++ Live y :: C]> hf) h' (fun l => if at1 (b, i) l then Some (Live x) else None)) as H1.
    { eapply hov_ext; [exact Hh|]. intros l cl _. unfold con_f. destruct (at1 (b, i) l); [reflexivity|]. unfold asrc. destruct a; reflexivity. }
    apply seg_one in H1; [subst h'; assumption|assumption].
Qed.
Lemma live1 b i x l : live_f b i [x] l = if at1 (b, i) l then Some (Live x) else None.
Proof. change [x] with ([] ++ [x]). rewrite live_f_snoc. cbn [length]. rewrite Nat.add_0_r, live_f_nil. reflexivity. Qed.
(** move assignment from a later or an earlier cell of the same block *)
Lemma sg_move_down b i j A z G x C (Q : post unit) E hf rg : length A = i -> i + 1 + length G = j ->
  (forall y, Q tt (<[b := A ++ Live x :: G ++ Live y :: C]> hf) rg) -> E (<[b := A ++ Live z :: G ++ Live x :: C]> hf) rg ->
  wp (assign_to tr moved (b, i) (Ref (b, j)) true) Q E (<[b := A ++ Live z :: G ++ Live x :: C]> hf) rg.
Proof.
  intros LA Lj HQ HE. eapply (wp_assign_to _ _ _ _ _ x); [|right; exists z; reflexivity| | |intros _; exact HE].
  - replace i with (length A + 0) by lia. apply (cell_seg b A [Live z] _ hf 0). cbn [length]. lia.
  - cbn [aval]. pose proof (cell_live b (A ++ Live z :: G) [x] C hf j) as Hc. rewrite <- app_assoc in Hc. cbn [app fmap list_fmap] in Hc. rewrite <- (Nat.add_0_r j). apply Hc; [rewrite app_length; cbn [length]; lia|reflexivity].
  - intros h' Hh. assert (H1 : hov (<[b := A ++ [Live z] ++ G ++ [Live x] ++ C]> hf) h' (orelse (live_f b i [x]) (live_f b j [mvd tr moved x]))).
    { eapply hov_ext; [exact Hh|]. intros l c _. unfold con_f, orelse, asrc. rewrite !live1. cbn [andb]. destruct (at1 (b, i) l); reflexivity. }
    apply seg_two_bwd in H1; [subst h'; apply HQ|assumption|reflexivity|cbn [length]; lia|reflexivity].
Qed.
Lemma sg_move_up b i j A x G z C (Q : post unit) E hf rg : length A = j -> j + 1 + length G = i ->
  (forall y, Q tt (<[b := A ++ Live y :: G ++ Live x :: C]> hf) rg) -> E (<[b := A ++ Live x :: G ++ Live z :: C]> hf) rg ->
  wp (assign_to tr moved (b, i) (Ref (b, j)) true) Q E (<[b := A ++ Live x :: G ++ Live z :: C]> hf) rg.
Proof.
  intros LA Lj HQ HE. eapply (wp_assign_to _ _ _ _ _ x); [|right; exists z; reflexivity| | |intros _; exact HE].
  - pose proof (cell_live b (A ++ Live x :: G) [z] C hf i) as Hc. rewrite <- app_assoc in Hc. cbn [app fmap list_fmap] in Hc. rewrite <- (Nat.add_0_r i). apply Hc; [rewrite app_length; cbn [length]; lia|reflexivity].
  - cbn [aval]. replace j with (length A + 0) by lia. apply (cell_seg b A [Live x] _ hf 0). cbn [length]. lia.
  - intros h' Hh. assert (H1 : hov (<[b := A ++ [Live x] ++ G ++ [Live z] ++ C]> hf) h' (orelse (live_f b i [x]) (live_f b j [mvd tr moved x]))).
    { eapply hov_ext; [exact Hh|]. intros l c _. unfold con_f, orelse, asrc. rewrite !live1. cbn [andb]. destruct (at1 (b, i) l); reflexivity. }
    apply seg_two_fwd in H1; [subst h'; apply HQ|assumption|reflexivity|cbn [length]; lia|reflexivity].
Qed.
End Segs.
