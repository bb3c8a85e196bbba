(** The visiting loops in terms of bits: what a callback must do on each word for the whole visit to compute
    a given function of the bits; the reading cursor over the other operand. *)
From stdpp Require Import list.
From Coq Require Import Arith NArith ZArith Lia.
From Coq Require Import ZifyBool ZifyNat ZifyN.
From Verif.Common Require Import Res Word WordFacts.
From Verif.BitVec Require Import Model Bits VisitProof.
Ltac Zify.zify_post_hook ::= Z.div_mod_to_equations.
Local Open Scope nat_scope.
Local Open Scope res_scope.

Definition inr (a b i : nat) : bool := (a <=? i) && (i <? b).
Lemma inr_spec a b i : Bool.reflect (a <= i < b) (inr a b i).
Proof. destruct (inr a b i) eqn:E; unfold inr in E; constructor; lia. Qed.

(** the word handed to the callback for the step [a,b) *)
Definition word_of (oor : bool) (sl : list N) (a b : nat) (v : N) : Prop :=
  w64 v /\ forall j, j < 64 -> tb v j = if inr a b (64 * (a / 64) + j) then bit sl (64 * (a / 64) + j) else oor.

Lemma word_of_oor oor sl a b s : Forall w64 sl -> sl !! (a / 64) = Some s -> a < b -> b <= 64 * (a / 64 + 1) ->
  word_of oor sl a b (oor_bits oor s (pa a b)).
Proof.
  intros Hw Hs H1 H2. rewrite Forall_lookup in Hw. specialize (Hw _ _ Hs). split.
  - unfold oor_bits. destruct oor; unfold pa; auto with w64.
  - intros j Hj. rewrite (bit_some _ _ _ _ Hs Hj). unfold oor_bits, pa.
    assert (Hin : inr a b (64 * (a / 64) + j) = (a mod 64 <=? j) && (j <? b - 64 * (a / 64))) by (unfold inr; lia).
    rewrite Hin. destruct oor; [rewrite tb_lor|rewrite tb_land, tb_wnot]; rewrite tb_pm; destruct (Nat.ltb_spec j 64); try lia; cbn [andb];
      destruct ((a mod 64 <=? j) && (j <? b - 64 * (a / 64))), (tb s j); reflexivity.
Qed.

Lemma nexta_bounds last a : a < last -> a < nexta last a /\ nexta last a <= last /\ nexta last a <= 64 * (a / 64 + 1).
Proof. intros H. unfold nexta. lia. Qed.

(** bits after merging a step *)
Lemma bit_merge sl a b s fs i : Forall w64 sl -> sl !! (a / 64) = Some s -> a < b -> b <= 64 * (a / 64 + 1) ->
  bit (<[a / 64 := merge s fs (pa a b)]> sl) i = if inr a b i then tb fs (i mod 64) else bit sl i.
Proof.
  intros Hw Hs H1 H2. pose proof (lookup_lt_Some _ _ _ Hs). rewrite bit_insert by assumption.
  destruct (Nat.eqb_spec (i / 64) (a / 64)) as [E|E].
  - rewrite (bit_at sl i s) by (rewrite E; assumption). unfold merge, pa.
    rewrite tb_lor, !tb_land, tb_wnot, tb_pm.
    assert (Hin : inr a b i = (a mod 64 <=? i mod 64) && (i mod 64 <? b - 64 * (a / 64))) by (unfold inr; lia).
    rewrite Hin. destruct (Nat.ltb_spec (i mod 64) 64); [|lia]. cbn [andb].
    destruct ((a mod 64 <=? i mod 64) && (i mod 64 <? b - 64 * (a / 64))), (tb s (i mod 64)), (tb fs (i mod 64)); reflexivity.
  - destruct (inr_spec a b i); [lia|reflexivity].
Qed.

Section Loops.
Context {X : Type} (f : X -> list N -> N -> Z -> res (N * X)).

Section MutF.
Context (sl0 : list N) (first last : nat) (newb : nat -> bool) (J : nat -> X -> Prop).
Definition finv (a : nat) (x : X) (sl : list N) : Prop :=
  J a x /\ length sl = length sl0 /\ Forall w64 sl /\ forall i, bit sl i = if inr first a i then newb i else bit sl0 i.
Definition fwd_step : Prop := forall a x sl v,
  first <= a -> a < last -> (a = first \/ a mod 64 = 0) -> J a x ->
  length sl = length sl0 -> Forall w64 sl -> (forall i, bit sl i = if inr first a i then newb i else bit sl0 i) ->
  word_of false sl0 a (nexta last a) v ->
  exists fs x', f x sl v (sha first last a) = Ok (fs, x') /\ w64 fs /\ J (nexta last a) x' /\
    forall i, a <= i -> i < nexta last a -> tb fs (i mod 64) = newb i.
Lemma fwd_mstep : fwd_step -> last <= 64 * length sl0 ->
  forall a x sl, first <= a -> a < last -> (a = first \/ a mod 64 = 0) -> finv a x sl -> mstep f first last finv a (nexta last a) a x sl.
Proof using.
  intros Hs Hlast a x sl H1 H2 H3 (HJ & Hl & Hw & Hb).
  destruct (nexta_bounds last a H2) as (N1 & N2 & N3).
  destruct (lookup_lt_is_Some_2 sl (a / 64)) as [s Hsl]; [lia|].
  assert (Hv : word_of false sl0 a (nexta last a) (oor_bits false s (pa a (nexta last a)))).
  { destruct (word_of_oor false sl a (nexta last a) s Hw Hsl N1 N3) as [W1 W2]. split; [assumption|].
    intros j Hj. rewrite (W2 j Hj). destruct (inr_spec a (nexta last a) (64 * (a / 64) + j)); [|reflexivity].
    rewrite Hb. destruct (inr_spec first a (64 * (a / 64) + j)); [lia|reflexivity]. }
  destruct (Hs a x sl _ H1 H2 H3 HJ Hl Hw Hb Hv) as (fs & x' & Hf & Hwf & HJ' & Hn).
  exists s, fs, x'. split; [assumption|]. split; [exact Hf|]. split; [assumption|]. split; [assumption|].
  split; [rewrite insert_length; assumption|]. split.
  - apply Forall_insert; [assumption|]. apply w64_merge; [|assumption]. rewrite Forall_lookup in Hw. eauto.
  - intros i. rewrite (bit_merge sl a (nexta last a) s fs i Hw Hsl N1 N3).
    destruct (inr_spec a (nexta last a) i).
    + rewrite Hn by lia. destruct (inr_spec first (nexta last a) i); [reflexivity|lia].
    + rewrite Hb. destruct (inr_spec first a i), (inr_spec first (nexta last a) i); try reflexivity; lia.
Qed.
Lemma visit_forward x : fwd_step -> first <= last -> last <= 64 * length sl0 -> Forall w64 sl0 -> J first x ->
  exists x' sl', visit f false false false first last x sl0 = Ok (x', sl', false) /\ J last x' /\
    length sl' = length sl0 /\ Forall w64 sl' /\ forall i, bit sl' i = if inr first last i then newb i else bit sl0 i.
Proof using.
  intros Hs Hle Hlast Hw HJ.
  destruct (visit_fwd f first last finv) with (x := x) (sl := sl0) as (x' & sl' & Hr & HI); [| | | |].
  - intros a y sl (H1 & H2 & H3 & H4). split; [assumption|]. lia.
  - intros a y sl. apply fwd_mstep; assumption.
  - assumption.
  - split; [assumption|]. split; [reflexivity|]. split; [assumption|]. intros i. destruct (inr_spec first first i); [lia|reflexivity].
  - exists x', sl'. auto.
Qed.
End MutF.

Section MutB.
Context (sl0 : list N) (first last : nat) (newb : nat -> bool) (J : nat -> X -> Prop).
Definition binv (b : nat) (x : X) (sl : list N) : Prop :=
  J b x /\ length sl = length sl0 /\ Forall w64 sl /\ forall i, bit sl i = if inr b last i then newb i else bit sl0 i.
Definition bwd_step : Prop := forall b x sl v,
  first < b -> b <= last -> (b = last \/ b mod 64 = 0) -> J b x ->
  word_of false sl0 (preva first b) b v ->
  exists fs x', f x sl v (sha first last (preva first b)) = Ok (fs, x') /\ w64 fs /\ J (preva first b) x' /\
    forall i, preva first b <= i -> i < b -> tb fs (i mod 64) = newb i.
Lemma visit_backward x : bwd_step -> first <= last -> last <= 64 * length sl0 -> Forall w64 sl0 -> J last x ->
  exists x' sl', visit f false false true first last x sl0 = Ok (x', sl', false) /\ J first x' /\
    length sl' = length sl0 /\ Forall w64 sl' /\ forall i, bit sl' i = if inr first last i then newb i else bit sl0 i.
Proof using.
  intros Hs Hle Hlast Hw HJ.
  destruct (visit_bwd f first last binv) with (x := x) (sl := sl0) as (x' & sl' & Hr & HI); [| | | |].
  - intros a y sl (H1 & H2 & H3 & H4). split; [assumption|]. lia.
  - intros b y sl H1 H2 H3 (HJb & Hl & Hwb & Hb).
    pose proof (nexta_preva first last b H1 H2 H3) as Hnp.
    assert (Hpb : preva first b < b /\ b <= 64 * (preva first b / 64 + 1) /\ first <= preva first b).
    { unfold preva. destruct (Nat.max_spec first (64 * ((b - 1) / 64))) as [[? ->]|[? ->]]; lia. }
    destruct Hpb as (N1 & N3 & N0).
    destruct (lookup_lt_is_Some_2 sl (preva first b / 64)) as [s Hsl]; [lia|].
    assert (Hv : word_of false sl0 (preva first b) b (oor_bits false s (pa (preva first b) b))).
    { destruct (word_of_oor false sl (preva first b) b s Hwb Hsl N1 N3) as [W1 W2]. split; [assumption|].
      intros j Hj. rewrite (W2 j Hj). destruct (inr_spec (preva first b) b (64 * (preva first b / 64) + j)); [|reflexivity].
      rewrite Hb. destruct (inr_spec b last (64 * (preva first b / 64) + j)); [lia|reflexivity]. }
    destruct (Hs b y sl _ H1 H2 H3 HJb Hv) as (fs & x' & Hf & Hwf & HJ' & Hn).
    exists s, fs, x'. rewrite Hnp. split; [assumption|]. split; [exact Hf|]. split; [assumption|]. split; [assumption|].
    split; [rewrite insert_length; assumption|]. split.
    + apply Forall_insert; [assumption|]. apply w64_merge; [|assumption]. rewrite Forall_lookup in Hwb. eauto.
    + intros i. rewrite (bit_merge sl (preva first b) b s fs i Hwb Hsl N1 N3).
      destruct (inr_spec (preva first b) b i).
      * rewrite Hn by lia. destruct (inr_spec (preva first b) last i); [reflexivity|lia].
      * rewrite Hb. destruct (inr_spec b last i), (inr_spec (preva first b) last i); try reflexivity; lia.
  - assumption.
  - split; [assumption|]. split; [reflexivity|]. split; [assumption|]. intros i. destruct (inr_spec last last i); [lia|reflexivity].
  - exists x', sl'. auto.
Qed.
End MutB.

(** read-only *)
Lemma visit_readonly oor sl first last (Inv : nat -> X -> Prop) (Q : X -> Prop) x :
  Forall w64 sl -> last <= 64 * length sl ->
  (forall a x v, first <= a -> a < last -> (a = first \/ a mod 64 = 0) -> Inv a x -> word_of oor sl a (nexta last a) v ->
     exists fs x', f x sl v (sha first last a) = Ok (fs, x') /\ (fs = 0%N -> Inv (nexta last a) x') /\ (fs <> 0%N -> Q x')) ->
  (first <= last -> Inv first x) -> (last < first -> Q x) -> (forall x, Inv last x -> Q x) ->
  exists x' stop, visit f true oor false first last x sl = Ok (x', sl, stop) /\ Q x'.
Proof using.
  intros Hw Hlast Hs H1 H2 H3. apply (visit_view f oor sl first last Inv Q); [|assumption|assumption|assumption|assumption].
  intros a y Ha1 Ha2 Ha3 HI. destruct (nexta_bounds last a Ha2) as (N1 & N2 & N3).
  destruct (lookup_lt_is_Some_2 sl (a / 64)) as [s Hsl]; [lia|].
  destruct (Hs a y _ Ha1 Ha2 Ha3 HI (word_of_oor oor sl a (nexta last a) s Hw Hsl N1 N3)) as (fs & x' & Hf & Hz & Hnz).
  exists s, fs, x'. auto.
Qed.

(** whole-vector visits *)
Lemma sha0 last a : sha 0 last a = 0%Z.
Proof using. unfold sha. change (Z.of_nat (0 mod 64)) with 0%Z. destruct (a / 64 =? 0 / 64), (64 * (a / 64 + 1) <=? last); reflexivity. Qed.
Lemma last_mask sz : 0 < sz -> (if bmod sz =? 0 then 0%N else himask sz) = pa (64 * (slot_cnt sz - 1)) sz.
Proof using.
  intros H. unfold bmod. rewrite slot_cnt_div. destruct (Nat.eqb_spec (sz mod 64) 0) as [E|E].
  - apply tb_ext; [apply w64_0|unfold pa; auto with w64|]. intros j Hj. unfold pa. rewrite tb_0, tb_pm. lia.
  - rewrite (mask_high sz (64 * ((sz + 63) / 64 - 1))) by lia. reflexivity.
Qed.
Lemma visit_all_forward st newb J x : wf st -> fwd_step (s_slots st) 0 (s_sz st) newb J -> J 0 x ->
  exists x' sl', visit_all f false false x st = Ok (x', sl') /\ J (s_sz st) x' /\
    length sl' = length (s_slots st) /\ Forall w64 sl' /\ forall i, bit sl' i = if inr 0 (s_sz st) i then newb i else bit (s_slots st) i.
Proof using.
  intros Hwf Hs HJ. pose proof (wf_len _ Hwf) as Hlen. pose proof (wf_w64 _ Hwf) as Hw. unfold visit_all. rewrite slot_cnt_div in *.
  destruct (Nat.eqb_spec ((s_sz st + 63) / 64) 0) as [E|E].
  { exists x, (s_slots st). split; [reflexivity|]. replace (s_sz st) with 0 by lia. split; [assumption|].
    split; [reflexivity|]. split; [assumption|]. intros i. destruct (inr_spec 0 0 i); [lia|reflexivity]. }
  set (n := (s_sz st + 63) / 64) in *. set (sz := s_sz st) in *. set (sl0 := s_slots st) in *.
  pose proof (fwd_mstep sl0 0 sz newb J Hs ltac:(lia)) as Hm.
  destruct (m_up f 0 sz (finv sl0 0 newb J)) with (n := n - 1) (a := 0) (x := x) (sl := sl0) as ([[x1 sl1] stop] & Hr & -> & HI); [| | | | | |].
  { intros a y sl (H1 & H2 & H3 & H4). split; [assumption|]. lia. }
  { exact Hm. }
  { lia. } { lia. } { reflexivity. }
  { split; [assumption|]. split; [reflexivity|]. split; [assumption|]. intros i. destruct (inr_spec 0 0 i); [lia|reflexivity]. }
  change (0 / 64) with 0 in Hr. rewrite Hr. cbn [rbind].
  rewrite (last_mask sz) by lia. rewrite slot_cnt_div. fold n. set (a := 64 * (n - 1)) in *. replace (0 + a) with a in HI by lia.
  assert (Hna : nexta sz a = sz) by (unfold nexta; lia).
  destruct (Hm a x1 sl1 ltac:(lia) ltac:(lia) ltac:(lia) HI) as (s & fs & x' & Hsl & Hf & Hwfs & HI').
  rewrite Hna in *. rewrite sha0 in Hf. unfold oor_bits. replace (a / 64) with (n - 1) in * by lia.
  unfold rd. rewrite Hsl. cbn [of_option rbind]. rewrite Hf. cbn [rbind].
  destruct HI as (HJ1 & Hl1 & Hw1 & Hb1). destruct HI' as (HJ2 & Hl2 & Hw2 & Hb2).
  assert (Hws : w64 s) by (rewrite Forall_lookup in Hw1; eauto).
  assert (Hmg : merge s fs (pa a sz) = N.land fs (wnot 64 (pa a sz))).
  { apply tb_ext; [apply w64_merge; assumption|auto with w64|]. intros j Hj. unfold merge. rewrite tb_lor, !tb_land.
    destruct (tb (pa a sz) j) eqn:Em; cbn [andb]; [|rewrite andb_false_r; reflexivity].
    assert (Hz : tb s j = false).
    { rewrite <- (bit_some _ _ _ _ Hsl Hj), Hb1. unfold pa in Em. rewrite tb_pm in Em.
      destruct (inr_spec 0 a (64 * (n - 1) + j)); [lia|]. apply (wf_zero _ Hwf). unfold sz in *. lia. }
    rewrite Hz. reflexivity. }
  destruct (N.eqb_spec s fs) as [<-|Hne].
  - exists x', sl1. split; [reflexivity|]. split; [assumption|]. split; [assumption|]. split; [assumption|].
    rewrite merge_same in Hb2 by assumption. rewrite list_insert_id in Hb2 by assumption. assumption.
  - unfold wr. pose proof (lookup_lt_Some _ _ _ Hsl). destruct (Nat.ltb_spec (n - 1) (length sl1)); [|lia].
    cbn [rbind]. rewrite Hmg in *. eexists x', _. split; [reflexivity|]. split; [assumption|]. split; [assumption|]. split; [assumption|]. exact Hb2.
Qed.
Lemma visit_all_readonly oor st (Inv : nat -> X -> Prop) (Q : X -> Prop) x : wf st ->
  (forall a x v, a < s_sz st -> a mod 64 = 0 -> Inv a x -> word_of oor (s_slots st) a (nexta (s_sz st) a) v ->
     exists fs x', f x (s_slots st) v 0%Z = Ok (fs, x') /\ (fs = 0%N -> Inv (nexta (s_sz st) a) x') /\
       (fs <> 0%N \/ nexta (s_sz st) a = s_sz st -> Q x')) ->
  Inv 0 x -> (s_sz st = 0 -> Q x) ->
  exists x', visit_all f true oor x st = Ok (x', s_slots st) /\ Q x'.
Proof using.
  intros Hwf Hs HJ H0. pose proof (wf_len _ Hwf) as Hlen. pose proof (wf_w64 _ Hwf) as Hw. unfold visit_all. rewrite slot_cnt_div in *.
  destruct (Nat.eqb_spec ((s_sz st + 63) / 64) 0) as [E|E].
  { exists x. split; [reflexivity|]. apply H0. lia. }
  set (n := (s_sz st + 63) / 64) in *. set (sz := s_sz st) in *. set (sl := s_slots st) in *.
  assert (Hm : forall a x, 0 <= a -> a < sz -> (a = 0 \/ a mod 64 = 0) -> Inv a x ->
     exists s fs x', sl !! (a / 64) = Some s /\ f x sl (oor_bits oor s (pa a (nexta sz a))) (sha 0 sz a) = Ok (fs, x') /\
     (fs = 0%N -> Inv (nexta sz a) x') /\ (fs <> 0%N \/ nexta sz a = sz -> Q x')).
  { intros a y Ha1 Ha2 Ha3 HI. destruct (nexta_bounds sz a Ha2) as (N1 & N2 & N3).
    destruct (lookup_lt_is_Some_2 sl (a / 64)) as [s Hsl]; [lia|]. rewrite sha0.
    destruct (Hs a y _ Ha2 ltac:(lia) HI (word_of_oor oor sl a (nexta sz a) s Hw Hsl N1 N3)) as (fs & x' & Hf & Hz & Hnz).
    exists s, fs, x'. auto. }
  destruct (v_up f oor sl 0 sz Inv Q) with (n := n - 1) (a := 0) (x := x) as ([[x1 sl1] stop] & Hr & -> & HI); [| | | | | |].
  { intros a y Ha1 Ha2 Ha3 HI. destruct (Hm a y Ha1 Ha2 Ha3 HI) as (s & fs & x' & ? & ? & ? & ?). exists s, fs, x'. split_and!; auto. }
  { assumption. }
  { lia. } { lia. } { reflexivity. } { assumption. }
  change (0 / 64) with 0 in Hr. rewrite Hr. cbn [rbind]. destruct stop; [exists x1; auto|].
  rewrite (last_mask sz) by lia. rewrite slot_cnt_div. fold n. set (a := 64 * (n - 1)) in *. replace (0 + a) with a in HI by lia.
  assert (Hna : nexta sz a = sz) by (unfold nexta; lia).
  destruct (Hm a x1 ltac:(lia) ltac:(lia) ltac:(lia) HI) as (s & fs & x' & Hsl & Hf & Hz & Hnz).
  rewrite Hna in *. rewrite sha0 in Hf. replace (a / 64) with (n - 1) in * by lia.
  unfold rd. rewrite Hsl. cbn [of_option rbind]. rewrite Hf. cbn [rbind]. exists x'. split; [reflexivity|]. apply Hnz. auto.
Qed.
End Loops.

(** ** the reading cursor *)
Lemma get_next_bits_spec sl last cur lg0 : Forall w64 sl -> last <= 64 * length sl -> cur < last -> 1 <= lg0 <= 64 ->
  exists v, get_next_bits sl last cur lg0 = Ok (v, cur + Nat.min lg0 (last - cur)) /\ w64 v /\
    forall j, tb v j = (j <? Nat.min lg0 (last - cur)) && bit sl (cur + j).
Proof.
  intros Hw Hl Hc Hlg. unfold get_next_bits. set (lg := Nat.min lg0 (last - cur)).
  assert (Hlg' : 1 <= lg <= 64 /\ cur + lg <= last) by lia. clearbody lg. clear lg0 Hlg.
  unfold slot, bmod, stride. destruct (lookup_lt_is_Some_2 sl (cur / 64)) as [s Hs]; [lia|].
  pose proof Hw as Hw'. rewrite Forall_lookup in Hw'. pose proof (Hw' _ _ Hs) as Hws.
  unfold rd. rewrite Hs. cbn [of_option rbind].
  assert (Hcur : forall j, cur mod 64 + j < 64 -> bit sl (cur + j) = tb s (j + cur mod 64)).
  { intros j Hj. rewrite (bit_at sl (cur + j) s); [f_equal; lia|]. replace ((cur + j) / 64) with (cur / 64) by lia. assumption. }
  destruct (Nat.eqb_spec lg 64) as [E1|E1]; [destruct (Nat.eqb_spec (cur mod 64) 0) as [E2|E2]|]; cbn [andb].
  - exists s. split; [reflexivity|]. split; [assumption|]. intros j. destruct (Nat.ltb_spec j lg).
    + rewrite Hcur by lia. rewrite E2. cbn [andb]. f_equal. lia.
    + cbn [andb]. apply tb_high; [assumption|lia].
  - destruct (Nat.leb_spec lg (64 - cur mod 64)); [lia|].
    destruct (lookup_lt_is_Some_2 sl (cur / 64 + 1)) as [s1 Hs1]; [lia|]. rewrite Hs1. cbn [of_option rbind].
    eexists. split; [reflexivity|]. split; [auto with w64|]. intros j.
    rewrite tb_lor, tb_shr, tb_shl, tb_land, tb_lowmask. unfold bmod.
    destruct (Nat.ltb_spec j lg), (Nat.ltb_spec j 64); try lia; cbn [andb].
    + destruct (Nat.lt_ge_cases (cur mod 64 + j) 64).
      * rewrite Hcur by assumption. destruct (Nat.leb_spec (64 - cur mod 64) j); [lia|]. cbn [andb]. rewrite orb_false_r. reflexivity.
      * rewrite (tb_high s) by (assumption || lia). rewrite (bit_at sl (cur + j) s1); [|replace ((cur + j) / 64) with (cur / 64 + 1) by lia; assumption].
        destruct (Nat.leb_spec (64 - cur mod 64) j), (Nat.ltb_spec (j - (64 - cur mod 64)) ((lg - (64 - cur mod 64)) mod 64)); try lia.
        cbn [andb orb]. rewrite andb_true_r. f_equal. lia.
    + rewrite (tb_high s) by (assumption || lia). reflexivity.
  - destruct (Nat.leb_spec lg (64 - cur mod 64)).
    + eexists. split; [reflexivity|]. split; [auto with w64|]. intros j. rewrite tb_shr, tb_land.
      destruct (Nat.ltb_spec j lg); cbn [andb].
      * rewrite Hcur by lia. destruct (Nat.eqb_spec ((cur + lg) mod 64) 0); [rewrite tb_ones|rewrite tb_lowmask; unfold bmod].
        -- destruct (Nat.ltb_spec (j + cur mod 64) 64); [|lia]. apply andb_true_r.
        -- destruct (Nat.ltb_spec (j + cur mod 64) ((cur + lg) mod 64)); [|lia]. apply andb_true_r.
      * destruct (Nat.eqb_spec ((cur + lg) mod 64) 0); [rewrite tb_ones|rewrite tb_lowmask; unfold bmod].
        -- destruct (Nat.ltb_spec (j + cur mod 64) 64); [lia|]. apply andb_false_r.
        -- destruct (Nat.ltb_spec (j + cur mod 64) ((cur + lg) mod 64)); [lia|]. apply andb_false_r.
    + destruct (lookup_lt_is_Some_2 sl (cur / 64 + 1)) as [s1 Hs1]; [lia|]. rewrite Hs1. cbn [of_option rbind].
      eexists. split; [reflexivity|]. split; [auto with w64|]. intros j.
      rewrite tb_lor, tb_shr, tb_shl, tb_land, tb_lowmask. unfold bmod.
      destruct (Nat.ltb_spec j lg); cbn [andb].
      * destruct (Nat.ltb_spec j 64); [|lia]. destruct (Nat.lt_ge_cases (cur mod 64 + j) 64).
        -- rewrite Hcur by assumption. destruct (Nat.leb_spec (64 - cur mod 64) j); [lia|]. cbn [andb]. rewrite orb_false_r. reflexivity.
        -- rewrite (tb_high s) by (assumption || lia). rewrite (bit_at sl (cur + j) s1); [|replace ((cur + j) / 64) with (cur / 64 + 1) by lia; assumption].
           destruct (Nat.leb_spec (64 - cur mod 64) j), (Nat.ltb_spec (j - (64 - cur mod 64)) ((lg - (64 - cur mod 64)) mod 64)); try lia.
           cbn [andb orb]. rewrite andb_true_r. f_equal. lia.
      * rewrite (tb_high s) by (assumption || lia).
        destruct (Nat.ltb_spec (j - (64 - cur mod 64)) ((lg - (64 - cur mod 64)) mod 64)); [lia|]. cbn [orb]. rewrite !andb_false_r. reflexivity.
Qed.

(** the state of the cursor when the visit is at [a], and the word it delivers *)
Definition cursor (first ofirst a : nat) : seqst :=
  mkQ (ofirst + (a - first)) (if a =? first then bmod (64 - first mod 64) else 0).
Lemma seq_next_spec sl first last ofirst olast a : Forall w64 sl -> olast <= 64 * length sl ->
  olast - ofirst = last - first -> ofirst <= olast -> first <= a -> a < last -> (a = first \/ a mod 64 = 0) ->
  exists v, seq_next sl (seq_const olast first) (cursor first ofirst a) = Ok (v, cursor first ofirst (nexta last a)) /\ w64 v /\
    forall j, j < 64 -> tb v j = inr a (nexta last a) (64 * (a / 64) + j) && bit sl (ofirst + (64 * (a / 64) + j - first)).
Proof.
  intros Hw Hl Heq Ho H1 H2 H3. unfold seq_next, cursor, seq_const. cbn [q_init q_cur c_last c_shift].
  set (init := if a =? first then bmod (64 - first mod 64) else 0).
  assert (Hinit : init = if a mod 64 =? 0 then 0 else 64 - a mod 64).
  { unfold init, bmod. destruct (Nat.eqb_spec a first), (Nat.eqb_spec (a mod 64) 0); subst; lia. }
  clearbody init. subst init. unfold nexta.
  destruct (Nat.eqb_spec (a mod 64) 0) as [E|E].
  - cbn [Nat.eqb]. destruct (get_next_bits_spec sl olast (ofirst + (a - first)) stride Hw Hl) as (v & -> & Hv & Hb); [lia|unfold stride; lia|].
    cbn [rbind]. exists v. split; [|split; [assumption|]].
    + f_equal. f_equal. f_equal; [unfold stride; lia|]. destruct (Nat.eqb_spec (Nat.min (64 * (a / 64 + 1)) last) first); [lia|reflexivity].
    + intros j Hj. rewrite Hb. replace (64 * (a / 64) + j) with (a + j) by lia.
      replace (ofirst + (a + j - first)) with (ofirst + (a - first) + j) by lia. f_equal. unfold inr, stride. lia.
  - destruct (Nat.eqb_spec (64 - a mod 64) 0); [lia|].
    destruct (get_next_bits_spec sl olast (ofirst + (a - first)) (64 - a mod 64) Hw Hl) as (v & -> & Hv & Hb); [lia|lia|].
    cbn [rbind]. exists (wshl 64 v (N.of_nat (bmod first))). split; [|split; [auto with w64|]].
    + f_equal. f_equal. f_equal; [lia|]. destruct (Nat.eqb_spec (Nat.min (64 * (a / 64 + 1)) last) first); [lia|reflexivity].
    + intros j Hj. rewrite tb_shl, Hb. unfold bmod. assert (a = first) by lia. subst a.
      destruct (Nat.ltb_spec j 64); [|lia]. cbn [andb].
      destruct (Nat.leb_spec (first mod 64) j); cbn [andb].
      * replace (ofirst + (64 * (first / 64) + j - first)) with (ofirst + (first - first) + (j - first mod 64)) by lia.
        f_equal. unfold inr. lia.
      * destruct (inr_spec first (Nat.min (64 * (first / 64 + 1)) last) (64 * (first / 64) + j)); [lia|reflexivity].
Qed.
