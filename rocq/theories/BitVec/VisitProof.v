(** The visiting loops, once and for all: a visit of [first,last) processes the positions
    first = a0 < a1 < ... < last, each step covering [a, next a) inside one word. *)
From stdpp Require Import list.
From Coq Require Import Arith NArith ZArith Lia.
From Coq Require Import ZifyBool ZifyNat ZifyN.
From Verif.Common Require Import Res Word WordFacts.
From Verif.BitVec Require Import Model Bits.
Ltac Zify.zify_post_hook ::= Z.div_mod_to_equations.
Local Open Scope nat_scope.
Local Open Scope res_scope.

Definition nexta (last a : nat) : nat := Nat.min (64 * (a / 64 + 1)) last.
Definition preva (first b : nat) : nat := Nat.max first (64 * ((b - 1) / 64)).
(** the shift argument passed for the word containing position [a] *)
Definition sha (first last a : nat) : Z :=
  if a / 64 =? first / 64 then Z.of_nat (first mod 64)
  else if 64 * (a / 64 + 1) <=? last then 0%Z else (- Z.of_nat (first mod 64))%Z.
Definition merge (s fs m : N) : N := N.lor (N.land s m) (N.land fs (wnot 64 m)).
(** mask of a step [a,b) *)
Definition pa (a b : nat) : N := pm (a mod 64) (b - 64 * (a / 64)).

Lemma merge_same s m : w64 s -> merge s s m = s.
Proof.
  intros Hs. apply tb_ext; [unfold merge; auto with w64|assumption|]. intros j Hj. unfold merge.
  rewrite tb_lor, !tb_land, tb_wnot. destruct (tb s j), (tb m j); cbn; lia.
Qed.
Lemma merge_full s fs : w64 fs -> merge s fs (pm 0 64) = fs.
Proof.
  intros Hs. apply tb_ext; [unfold merge; auto using w64_land_r with w64|assumption|]. intros j Hj. unfold merge.
  rewrite tb_lor, !tb_land, tb_wnot, tb_pm. destruct (tb s j), (tb fs j); cbn; lia.
Qed.
Lemma w64_merge s fs m : w64 s -> w64 fs -> w64 (merge s fs m).
Proof. intros. unfold merge. auto with w64. Qed.
Lemma mask_same first last : first < last -> first / 64 = last / 64 ->
  wnot 64 (N.lxor (lowmask first) (lowmask last)) = pa first last.
Proof.
  intros H1 H2. apply tb_ext; [auto with w64|unfold pa; auto with w64|]. intros j Hj.
  unfold pa. rewrite tb_wnot, tb_lxor, !tb_lowmask, tb_pm. unfold bmod. destruct (Nat.ltb_spec j 64); [|lia]. cbn [andb]. f_equal.
  replace (last - 64 * (first / 64)) with (last mod 64) by lia.
  destruct (Nat.ltb_spec j (first mod 64)), (Nat.ltb_spec j (last mod 64)), (Nat.leb_spec (first mod 64) j); cbn; lia.
Qed.
Lemma mask_low first b : b = 64 * (first / 64 + 1) -> lowmask first = pa first b.
Proof.
  intros ->. apply tb_ext; [auto with w64|unfold pa; auto with w64|]. intros j Hj. unfold pa. rewrite tb_lowmask, tb_pm. unfold bmod.
  replace (64 * (first / 64 + 1) - 64 * (first / 64)) with 64 by lia. lia.
Qed.
Lemma mask_high last a : a = 64 * (last / 64) -> last mod 64 <> 0 -> himask last = pa a last.
Proof.
  intros -> H. apply tb_ext; [auto with w64|unfold pa; auto with w64|]. intros j Hj. unfold pa. rewrite tb_himask, tb_pm. unfold bmod.
  replace (64 * (last / 64) / 64) with (last / 64) by lia. replace ((64 * (last / 64)) mod 64) with 0 by lia.
  replace (last - 64 * (last / 64)) with (last mod 64) by lia. lia.
Qed.
Lemma mask_full a : a mod 64 = 0 -> pm 0 64 = pa a (a + 64).
Proof. intros H. unfold pa. rewrite H. f_equal. lia. Qed.

Lemma oor_full oor s : w64 s -> oor_bits oor s (pm 0 64) = s.
Proof.
  intros Hs. apply tb_ext; [unfold oor_bits; destruct oor; auto with w64|assumption|]. intros j Hj. unfold oor_bits.
  destruct oor; [rewrite tb_lor|rewrite tb_land, tb_wnot]; rewrite tb_pm; destruct (tb s j); cbn; lia.
Qed.

Lemma nexta_preva first last b : first < b -> b <= last -> (b = last \/ b mod 64 = 0) -> nexta last (preva first b) = b.
Proof. intros H1 H2 H3. unfold nexta, preva. destruct (Nat.max_spec first (64 * ((b - 1) / 64))) as [[? ->]|[? ->]]; lia. Qed.

Section Visit.
Context {X : Type} (f : X -> list N -> N -> Z -> res (N * X)).

(** ** views: the storage is not changed *)
Section View.
Context (oor : bool) (sl : list N) (first last : nat) (Inv : nat -> X -> Prop) (Q : X -> Prop).
Notation part := (visit_part f true oor).
Notation full := (visit_full f true).
Context (Hstep : forall a x, first <= a -> a < last -> (a = first \/ a mod 64 = 0) -> Inv a x ->
   exists s fs x', sl !! (a / 64) = Some s /\ f x sl (oor_bits oor s (pa a (nexta last a))) (sha first last a) = Ok (fs, x') /\
     (fs = 0%N -> Inv (nexta last a) x') /\ (fs <> 0%N -> Q x')).
Context (Hw : Forall w64 sl).

Definition post (b : nat) (r : X * list N * bool) : Prop :=
  let '(x', sl', stop) := r in sl' = sl /\ if stop then Q x' else Inv b x'.

Lemma v_part a x m sh : first <= a -> a < last -> (a = first \/ a mod 64 = 0) -> Inv a x ->
  m = pa a (nexta last a) -> sh = sha first last a ->
  exists r, part x sl (a / 64) m sh = Ok r /\ post (nexta last a) r.
Proof using Hstep.
  intros H1 H2 H3 HI -> ->. destruct (Hstep a x H1 H2 H3 HI) as (s & fs & x' & Hs & Hf & Hz & Hnz).
  unfold visit_part, rd. rewrite Hs. cbn [of_option rbind]. rewrite Hf. cbn [rbind].
  eexists. split; [reflexivity|]. cbn. split; [reflexivity|]. destruct (N.eqb_spec fs 0); cbn; auto.
Qed.
Lemma v_full a x : first <= a -> a + 64 <= last -> a mod 64 = 0 -> Inv a x ->
  exists r, full x sl (a / 64) = Ok r /\ post (a + 64) r.
Proof using Hstep Hw.
  intros H1 H2 H3 HI. destruct (Hstep a x H1 ltac:(lia) (or_intror H3) HI) as (s & fs & x' & Hs & Hf & Hz & Hnz).
  assert (Hn : nexta last a = a + 64) by (unfold nexta; lia). rewrite Hn in *.
  rewrite <- mask_full in Hf by assumption. rewrite Forall_lookup in Hw. rewrite oor_full in Hf by eauto.
  replace (sha first last a) with 0%Z in Hf by (unfold sha; destruct (Nat.eqb_spec (a / 64) (first / 64)), (Nat.leb_spec (64 * (a / 64 + 1)) last); lia).
  unfold visit_full, rd. rewrite Hs. cbn [of_option rbind]. rewrite Hf. cbn [rbind].
  eexists. split; [reflexivity|]. cbn. split; [reflexivity|]. destruct (N.eqb_spec fs 0); cbn; auto.
Qed.
Lemma v_up n : forall a x, first <= a -> a + 64 * n <= last -> a mod 64 = 0 -> Inv a x ->
  exists r, visit_up f true n x sl (a / 64) = Ok r /\ post (a + 64 * n) r.
Proof using Hstep Hw.
  induction n as [|n IH]; intros a x H1 H2 H3 HI; cbn [visit_up].
  - eexists. split; [reflexivity|]. split; [reflexivity|]. replace (a + 64 * 0) with a by lia. assumption.
  - destruct (v_full a x H1 ltac:(lia) H3 HI) as ([[x1 sl1] stop] & -> & -> & Hp). cbn [rbind].
    destruct stop.
    + eexists. split; [reflexivity|]. cbn. auto.
    + destruct (IH (a + 64) x1 ltac:(lia) ltac:(lia) ltac:(lia) Hp) as (r & Hr & Hpr).
      replace ((a + 64) / 64) with (S (a / 64)) in Hr by lia. exists r. split; [assumption|].
      replace (a + 64 * S n) with (a + 64 + 64 * n) by lia. assumption.
Qed.
Lemma visit_view x : (first <= last -> Inv first x) -> (last < first -> Q x) -> (forall x, Inv last x -> Q x) ->
  exists x' stop, visit f true oor false first last x sl = Ok (x', sl, stop) /\ Q x'.
Proof using Hstep Hw.
  intros H0 H0' HQ. unfold visit. destruct (Nat.leb_spec last first) as [Hle|Hlt].
  { exists x, false. split; [reflexivity|]. destruct (Nat.eq_dec last first) as [<-|]; [auto|apply H0'; lia]. }
  assert (HI : Inv first x) by (apply H0; lia). clear H0 H0'.
  assert (Hfin : forall r, post last r -> exists x' stop, Ok r = Ok (x', sl, stop) /\ Q x').
  { intros [[x' sl'] stop] [-> Hp]. exists x', stop. split; [reflexivity|]. destruct stop; auto. }
  unfold slot, bmod. destruct (Nat.eqb_spec (first / 64) (last / 64)) as [He|Hne].
  - destruct (v_part first x (wnot 64 (N.lxor (lowmask first) (lowmask last))) (Z.of_nat (first mod 64))) as (r & -> & Hp);
      [lia|lia|auto|assumption|rewrite mask_same by assumption; f_equal; unfold nexta; lia
      |unfold sha; rewrite Nat.eqb_refl; reflexivity|].
    apply Hfin. replace (nexta last first) with last in Hp by (unfold nexta; lia). assumption.
  - cbn [negb].
    set (fs1 := if first mod 64 =? 0 then first / 64 else S (first / 64)).
    assert (Hst1 : exists r, (if first mod 64 =? 0 then Ok (x, sl, false) else part x sl (first / 64) (lowmask first) (Z.of_nat (first mod 64))) = Ok r /\
              post (64 * fs1) r).
    { unfold fs1. destruct (Nat.eqb_spec (first mod 64) 0) as [Hz|Hz].
      - eexists. split; [reflexivity|]. split; [reflexivity|]. replace (64 * (first / 64)) with first by lia. assumption.
      - destruct (v_part first x (lowmask first) (Z.of_nat (first mod 64))) as (r & Hr & Hp);
          [lia|lia|auto|assumption|apply mask_low; unfold nexta; lia|unfold sha; rewrite Nat.eqb_refl; reflexivity|].
        exists r. split; [assumption|]. replace (64 * S (first / 64)) with (nexta last first) by (unfold nexta; lia). assumption. }
    destruct Hst1 as ([[x1 sl1] stop1] & -> & -> & Hp1). cbn [rbind]. destruct stop1; [exists x1, true; auto|].
    assert (Hfs1 : first <= 64 * fs1 /\ fs1 <= last / 64 /\ 64 * fs1 <= last) by (unfold fs1; destruct (Nat.eqb_spec (first mod 64) 0); lia).
    destruct (v_up (last / 64 - fs1) (64 * fs1) x1) as ([[x2 sl2] stop2] & Hr2 & -> & Hp2); [lia|lia|lia|assumption|].
    replace (64 * fs1 / 64) with fs1 in Hr2 by lia. rewrite Hr2. cbn [rbind]. destruct stop2; [exists x2, true; auto|].
    replace (64 * fs1 + 64 * (last / 64 - fs1)) with (64 * (last / 64)) in Hp2 by lia.
    destruct (Nat.eqb_spec (last mod 64) 0) as [Hz|Hz].
    + exists x2, false. split; [reflexivity|]. apply HQ. replace last with (64 * (last / 64)) by lia. assumption.
    + destruct (v_part (64 * (last / 64)) x2 (himask last) (- Z.of_nat (first mod 64))%Z) as (r & Hr & Hp);
        [lia|lia|right; lia|assumption| | |].
      * replace (nexta last (64 * (last / 64))) with last by (unfold nexta; lia). apply mask_high; [reflexivity|assumption].
      * unfold sha. replace (64 * (last / 64) / 64) with (last / 64) by lia.
        destruct (Nat.eqb_spec (last / 64) (first / 64)), (Nat.leb_spec (64 * (last / 64 + 1)) last); lia.
      * replace (64 * (last / 64) / 64) with (last / 64) in Hr by lia. rewrite Hr. apply Hfin.
        replace (nexta last (64 * (last / 64))) with last in Hp by (unfold nexta; lia). assumption.
Qed.
End View.

(** ** mutating visits *)
Section Mut.
Context (first last : nat) (Inv : nat -> X -> list N -> Prop).
Notation part := (visit_part f false false).
Notation full := (visit_full f false).
Context (Hlen : forall a x sl, Inv a x sl -> Forall w64 sl /\ last <= 64 * length sl).

(** one step turns [Inv a] into [Inv b]; [a] is its lowest position *)
Definition mstep (p q a : nat) (x : X) (sl : list N) : Prop :=
  exists s fs x', sl !! (a / 64) = Some s /\ f x sl (N.land s (wnot 64 (pa a (nexta last a)))) (sha first last a) = Ok (fs, x') /\
     w64 fs /\ Inv q x' (<[a / 64 := merge s fs (pa a (nexta last a))]> sl).

Definition mpost (b : nat) (r : X * list N * bool) : Prop := let '(x', sl', stop) := r in stop = false /\ Inv b x' sl'.
Lemma m_part p q a x sl m sh : Inv p x sl -> mstep p q a x sl -> m = pa a (nexta last a) -> sh = sha first last a ->
  exists r, part x sl (a / 64) m sh = Ok r /\ mpost q r.
Proof using Hlen.
  intros HI (s & fs & x' & Hs & Hf & Hwf & HI') -> ->. destruct (Hlen _ _ _ HI) as [Hw _].
  unfold visit_part, rd. rewrite Hs. cbn [of_option rbind]. unfold oor_bits. rewrite Hf. cbn [rbind].
  destruct (N.eqb_spec s fs) as [<-|Hne].
  - eexists. split; [reflexivity|]. split; [reflexivity|]. rewrite merge_same in HI' by (rewrite Forall_lookup in Hw; eauto).
    rewrite list_insert_id in HI' by assumption. assumption.
  - unfold wr. pose proof (lookup_lt_Some _ _ _ Hs). destruct (Nat.ltb_spec (a / 64) (length sl)); [|lia].
    cbn [rbind]. eexists. split; [reflexivity|]. split; [reflexivity|]. exact HI'.
Qed.
Lemma m_full p q a x sl : Inv p x sl -> mstep p q a x sl -> first <= a -> a + 64 <= last -> a mod 64 = 0 ->
  exists r, full x sl (a / 64) = Ok r /\ mpost q r.
Proof using Hlen.
  intros HI (s & fs & x' & Hs & Hf & Hwf & HI') H1 H2 H3. destruct (Hlen _ _ _ HI) as [Hw _]. rewrite Forall_lookup in Hw.
  assert (Hn : nexta last a = a + 64) by (unfold nexta; lia). rewrite Hn in *.
  rewrite <- mask_full in * by assumption. change (N.land s (wnot 64 (pm 0 64))) with (oor_bits false s (pm 0 64)) in Hf.
  rewrite oor_full in Hf by eauto. rewrite merge_full in HI' by assumption.
  replace (sha first last a) with 0%Z in Hf by (unfold sha; destruct (Nat.eqb_spec (a / 64) (first / 64)), (Nat.leb_spec (64 * (a / 64 + 1)) last); lia).
  unfold visit_full, rd. rewrite Hs. cbn [of_option rbind]. rewrite Hf. cbn [rbind].
  destruct (N.eqb_spec s fs) as [<-|Hne].
  - eexists. split; [reflexivity|]. split; [reflexivity|]. rewrite list_insert_id in HI' by assumption. assumption.
  - unfold wr. pose proof (lookup_lt_Some _ _ _ Hs). destruct (Nat.ltb_spec (a / 64) (length sl)); [|lia].
    cbn [rbind]. eexists. split; [reflexivity|]. split; [reflexivity|]. exact HI'.
Qed.

Section Fwd.
Context (Hstep : forall a x sl, first <= a -> a < last -> (a = first \/ a mod 64 = 0) -> Inv a x sl -> mstep a (nexta last a) a x sl).
Lemma m_up n : forall a x sl, first <= a -> a + 64 * n <= last -> a mod 64 = 0 -> Inv a x sl ->
  exists r, visit_up f false n x sl (a / 64) = Ok r /\ mpost (a + 64 * n) r.
Proof using Hstep Hlen.
  induction n as [|n IH]; intros a x sl H1 H2 H3 HI; cbn [visit_up].
  - eexists. split; [reflexivity|]. split; [reflexivity|]. replace (a + 64 * 0) with a by lia. assumption.
  - assert (Hn : nexta last a = a + 64) by (unfold nexta; lia).
    destruct (m_full a (nexta last a) a x sl HI (Hstep a x sl H1 ltac:(lia) (or_intror H3) HI) H1 ltac:(lia) H3) as ([[x1 sl1] stop] & -> & -> & Hp).
    cbn [rbind]. rewrite Hn in Hp.
    destruct (IH (a + 64) x1 sl1 ltac:(lia) ltac:(lia) ltac:(lia) Hp) as (r & Hr & Hpr).
    replace ((a + 64) / 64) with (S (a / 64)) in Hr by lia. exists r. split; [assumption|].
    replace (a + 64 * S n) with (a + 64 + 64 * n) by lia. assumption.
Qed.
Lemma visit_fwd x sl : first <= last -> Inv first x sl -> exists x' sl', visit f false false false first last x sl = Ok (x', sl', false) /\ Inv last x' sl'.
Proof using Hstep Hlen.
  intros Hle0 HI. unfold visit. destruct (Nat.leb_spec last first) as [Hle|Hlt].
  { exists x, sl. split; [reflexivity|]. replace last with first by lia. assumption. }
  assert (Hfin : forall r, mpost last r -> exists x' sl', Ok r = Ok (x', sl', false) /\ Inv last x' sl').
  { intros [[x' sl'] stop] [-> Hp]. exists x', sl'. auto. }
  unfold slot, bmod. destruct (Nat.eqb_spec (first / 64) (last / 64)) as [He|Hne].
  - destruct (m_part first (nexta last first) first x sl (wnot 64 (N.lxor (lowmask first) (lowmask last))) (Z.of_nat (first mod 64)) HI) as (r & -> & Hp);
      [apply Hstep; auto|rewrite mask_same by assumption; f_equal; unfold nexta; lia|unfold sha; rewrite Nat.eqb_refl; reflexivity|].
    apply Hfin. replace (nexta last first) with last in Hp by (unfold nexta; lia). assumption.
  - cbn [negb].
    set (fs1 := if first mod 64 =? 0 then first / 64 else S (first / 64)).
    assert (Hst1 : exists r, (if first mod 64 =? 0 then Ok (x, sl, false) else part x sl (first / 64) (lowmask first) (Z.of_nat (first mod 64))) = Ok r /\
              mpost (64 * fs1) r).
    { unfold fs1. destruct (Nat.eqb_spec (first mod 64) 0) as [Hz|Hz].
      - eexists. split; [reflexivity|]. split; [reflexivity|]. replace (64 * (first / 64)) with first by lia. assumption.
      - destruct (m_part first (nexta last first) first x sl (lowmask first) (Z.of_nat (first mod 64)) HI) as (r & Hr & Hp);
          [apply Hstep; auto|apply mask_low; unfold nexta; lia|unfold sha; rewrite Nat.eqb_refl; reflexivity|].
        exists r. split; [assumption|]. replace (64 * S (first / 64)) with (nexta last first) by (unfold nexta; lia). assumption. }
    destruct Hst1 as ([[x1 sl1] stop1] & -> & -> & Hp1). cbn [rbind].
    assert (Hfs1 : first <= 64 * fs1 /\ fs1 <= last / 64 /\ 64 * fs1 <= last) by (unfold fs1; destruct (Nat.eqb_spec (first mod 64) 0); lia).
    destruct (m_up (last / 64 - fs1) (64 * fs1) x1 sl1) as ([[x2 sl2] stop2] & Hr2 & -> & Hp2); [lia|lia|lia|assumption|].
    replace (64 * fs1 / 64) with fs1 in Hr2 by lia. rewrite Hr2. cbn [rbind].
    replace (64 * fs1 + 64 * (last / 64 - fs1)) with (64 * (last / 64)) in Hp2 by lia.
    destruct (Nat.eqb_spec (last mod 64) 0) as [Hz|Hz].
    + exists x2, sl2. split; [reflexivity|]. replace last with (64 * (last / 64)) by lia. assumption.
    + destruct (m_part (64 * (last / 64)) (nexta last (64 * (last / 64))) (64 * (last / 64)) x2 sl2 (himask last) (- Z.of_nat (first mod 64))%Z Hp2) as (r & Hr & Hp).
      * apply Hstep; [lia|lia|right; lia|assumption].
      * replace (nexta last (64 * (last / 64))) with last by (unfold nexta; lia). apply mask_high; [reflexivity|assumption].
      * unfold sha. replace (64 * (last / 64) / 64) with (last / 64) by lia.
        destruct (Nat.eqb_spec (last / 64) (first / 64)), (Nat.leb_spec (64 * (last / 64 + 1)) last); lia.
      * replace (64 * (last / 64) / 64) with (last / 64) in Hr by lia. rewrite Hr. apply Hfin.
        replace (nexta last (64 * (last / 64))) with last in Hp by (unfold nexta; lia). assumption.
Qed.
End Fwd.

Section Bwd.
Context (Hstep : forall b x sl, first < b -> b <= last -> (b = last \/ b mod 64 = 0) -> Inv b x sl ->
  mstep b (preva first b) (preva first b) x sl).
Lemma m_down n : forall b x sl, first <= b - 64 * n -> 64 * n <= b -> b <= last -> b mod 64 = 0 -> Inv b x sl ->
  exists r, visit_down f false n x sl (b / 64 - 1) = Ok r /\ mpost (b - 64 * n) r.
Proof using Hstep Hlen.
  induction n as [|n IH]; intros b x sl H1 H1' H2 H3 HI; cbn [visit_down].
  - eexists. split; [reflexivity|]. split; [reflexivity|]. replace (b - 64 * 0) with b by lia. assumption.
  - assert (Hp : preva first b = b - 64) by (unfold preva; lia).
    destruct (m_full b (preva first b) (preva first b) x sl HI (Hstep b x sl ltac:(lia) H2 (or_intror H3) HI)) as ([[x1 sl1] stop] & Hr & -> & HI1);
      [lia|lia|lia|].
    rewrite Hp in *. replace ((b - 64) / 64) with (b / 64 - 1) in Hr by lia. rewrite Hr. cbn [rbind].
    destruct (IH (b - 64) x1 sl1) as (r & Hr2 & Hpr); [lia|lia|lia|lia|assumption|].
    replace ((b - 64) / 64 - 1) with (b / 64 - 1 - 1) in Hr2 by lia. exists r. split; [assumption|].
    replace (b - 64 * S n) with (b - 64 - 64 * n) by lia. assumption.
Qed.
Lemma visit_bwd x sl : first <= last -> Inv last x sl -> exists x' sl', visit f false false true first last x sl = Ok (x', sl', false) /\ Inv first x' sl'.
Proof using Hstep Hlen.
  intros Hle0 HI. unfold visit. destruct (Nat.leb_spec last first) as [Hle|Hlt].
  { exists x, sl. split; [reflexivity|]. replace first with last by lia. assumption. }
  assert (Hfin : forall r, mpost first r -> exists x' sl', Ok r = Ok (x', sl', false) /\ Inv first x' sl').
  { intros [[x' sl'] stop] [-> Hp]. exists x', sl'. auto. }
  assert (Hlastpart : forall x sl, Inv (Nat.min last (64 * (first / 64 + 1))) x sl ->
     exists r, part x sl (first / 64) (pa first (nexta last first)) (Z.of_nat (first mod 64)) = Ok r /\ mpost first r).
  { intros x1 sl1 HI1. set (b := Nat.min last (64 * (first / 64 + 1))) in *.
    assert (Hp : preva first b = first) by (unfold preva, b; lia).
    destruct (m_part b (preva first b) (preva first b) x1 sl1 (pa first (nexta last first)) (Z.of_nat (first mod 64)) HI1) as (r & Hr & Hpr).
    - apply Hstep; [lia|lia| |assumption]. unfold b. lia.
    - rewrite Hp. reflexivity.
    - rewrite Hp. unfold sha. rewrite Nat.eqb_refl. reflexivity.
    - rewrite Hp in *. eauto. }
  unfold slot, bmod. destruct (Nat.eqb_spec (first / 64) (last / 64)) as [He|Hne].
  - rewrite mask_same by assumption. destruct (Hlastpart x sl) as (r & Hr & Hp).
    { replace (Nat.min last (64 * (first / 64 + 1))) with last by lia. assumption. }
    replace (nexta last first) with last in Hr by (unfold nexta; lia). rewrite Hr. apply Hfin. assumption.
  - cbn [negb].
    assert (Hst1 : exists r, (if last mod 64 =? 0 then Ok (x, sl, false) else part x sl (last / 64) (himask last) (- Z.of_nat (first mod 64))%Z) = Ok r /\
              mpost (64 * (last / 64)) r).
    { destruct (Nat.eqb_spec (last mod 64) 0) as [Hz|Hz].
      - eexists. split; [reflexivity|]. split; [reflexivity|]. replace (64 * (last / 64)) with last by lia. assumption.
      - assert (Hp : preva first last = 64 * (last / 64)) by (unfold preva; lia).
        destruct (m_part last (preva first last) (preva first last) x sl (himask last) (- Z.of_nat (first mod 64))%Z HI) as (r & Hr & Hpr).
        + apply Hstep; auto.
        + rewrite Hp. replace (nexta last (64 * (last / 64))) with last by (unfold nexta; lia). apply mask_high; [reflexivity|assumption].
        + rewrite Hp. unfold sha. replace (64 * (last / 64) / 64) with (last / 64) by lia.
          destruct (Nat.eqb_spec (last / 64) (first / 64)), (Nat.leb_spec (64 * (last / 64 + 1)) last); lia.
        + rewrite Hp in *. replace (64 * (last / 64) / 64) with (last / 64) in Hr by lia. eauto. }
    destruct Hst1 as ([[x1 sl1] stop1] & -> & -> & Hp1). cbn [rbind].
    destruct (m_down (last / 64 - 1 - first / 64) (64 * (last / 64)) x1 sl1) as ([[x2 sl2] stop2] & Hr2 & -> & Hp2); [lia|lia|lia|lia|assumption|].
    replace (64 * (last / 64) / 64 - 1) with (last / 64 - 1) in Hr2 by lia. rewrite Hr2. cbn [rbind].
    rewrite (mask_low first (nexta last first)) by (unfold nexta; lia).
    destruct (Hlastpart x2 sl2) as (r & Hr & Hp).
    { replace (Nat.min last (64 * (first / 64 + 1))) with (64 * (last / 64) - 64 * (last / 64 - 1 - first / 64)) by lia. assumption. }
    rewrite Hr. apply Hfin. assumption.
Qed.
End Bwd.
End Mut.
End Visit.
