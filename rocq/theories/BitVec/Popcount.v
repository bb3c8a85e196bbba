(** Population count (bytewise argument) and the De Bruijn bit scan are exact. *)
From stdpp Require Import list.
From Coq Require Import Arith NArith ZArith Lia.
From Coq Require Import ZifyBool ZifyNat ZifyN.
From Verif.Common Require Import Res Word WordFacts.
From Verif.BitVec Require Import Model Bits Spec SpecFacts.
Ltac Zify.zify_post_hook ::= Z.div_mod_to_equations.
Local Open Scope N_scope.
Local Arguments N.pow : simpl never.
Local Arguments N.mul : simpl never.
Local Arguments N.add : simpl never.
Local Arguments N.sub : simpl never.
Local Arguments N.div : simpl never.
Local Arguments N.modulo : simpl never.
Local Arguments N.shiftr : simpl never.
Local Arguments N.land : simpl never.

(** a number from its bytes, least significant first *)
Fixpoint lb (l : list N) : N := match l with [] => 0 | d :: r => d + 256 * lb r end.
Definition isb (l : list N) : Prop := Forall (fun d => d < 256) l.
Fixpoint bytes (n : nat) (w : N) : list N := match n with O => [] | S k => w mod 256 :: bytes k (w / 256) end.
Lemma bytes_ok n : forall w, w < 256 ^ N.of_nat n -> lb (bytes n w) = w.
Proof.
  induction n as [|n IH]; intros w Hw; [change (256 ^ N.of_nat 0) with 1 in Hw; cbn; lia|].
  cbn [bytes lb]. rewrite IH; [lia|]. replace (N.of_nat (S n)) with (N.succ (N.of_nat n)) in Hw by lia. rewrite N.pow_succ_r' in Hw. lia.
Qed.
Lemma bytes_isb n : forall w, isb (bytes n w).
Proof. unfold isb. induction n; intros; cbn [bytes]; constructor; [lia|apply IHn]. Qed.
Lemma bytes_len n : forall w, length (bytes n w) = n.
Proof. induction n; intros; cbn [bytes length]; [reflexivity|]. rewrite IHn. reflexivity. Qed.

Lemma tb_cons_low d x i : d < 256 -> i < 8 -> N.testbit (d + 256 * x) i = N.testbit d i.
Proof.
  intros Hd Hi. rewrite <- (N.mod_pow2_bits_low _ 8) by assumption. change (2 ^ 8) with 256. f_equal. lia.
Qed.
Lemma tb_cons_high d x i : d < 256 -> 8 <= i -> N.testbit (d + 256 * x) i = N.testbit x (i - 8).
Proof.
  intros Hd Hi. replace i with ((i - 8) + 8) at 1 by lia. rewrite <- N.div_pow2_bits. change (2 ^ 8) with 256. f_equal. lia.
Qed.
Lemma land_mask_byte k m d x y : d < 256 -> m < 2 ^ (8 - k) -> k <= 8 ->
  N.land (N.shiftr (d + 256 * x) k) (m + 256 * y) = N.land (N.shiftr d k) m + 256 * N.land (N.shiftr x k) y.
Proof.
  intros Hd Hm Hk. assert (Hm' : m < 256) by (change 256 with (2 ^ 8); apply N.lt_le_trans with (2 ^ (8 - k)); [assumption|apply N.pow_le_mono_r; lia]).
  assert (Hl : N.land (N.shiftr d k) m < 256).
  { change 256 with (2 ^ 8). apply lt_pow2_testbit. intros i Hi. rewrite N.land_spec, (testbit_high m 8) by assumption. apply andb_false_r. }
  apply N.bits_inj. intros i. rewrite N.land_spec, N.shiftr_spec by lia. destruct (N.lt_ge_cases i 8) as [Hi|Hi].
  - rewrite !(tb_cons_low _ _ i) by assumption. rewrite N.land_spec, N.shiftr_spec by lia.
    destruct (N.lt_ge_cases (i + k) 8); [rewrite tb_cons_low by assumption; reflexivity|].
    rewrite (testbit_high m (8 - k)) by (assumption || lia). rewrite !andb_false_r. reflexivity.
  - rewrite !(tb_cons_high _ _ i) by assumption. rewrite tb_cons_high by (assumption || lia). rewrite N.land_spec, N.shiftr_spec by lia.
    do 2 f_equal. lia.
Qed.
Lemma land_mask k m l : isb l -> m < 2 ^ (8 - k) -> k <= 8 ->
  N.land (N.shiftr (lb l) k) (lb (replicate (length l) m)) = lb (map (fun d => N.land (N.shiftr d k) m) l).
Proof.
  intros Hl Hm Hk. induction Hl as [|d l Hd Hl IH]; [cbn [lb replicate length map]; rewrite N.land_0_r; reflexivity|].
  cbn [lb replicate length map]. rewrite land_mask_byte by assumption. rewrite IH. reflexivity.
Qed.
Lemma lb_add (f g : N -> N) l : lb (map f l) + lb (map g l) = lb (map (fun d => f d + g d) l).
Proof. induction l; cbn [map lb]; lia. Qed.
Lemma lb_sub (f g : N -> N) l : Forall (fun d => g d <= f d) l -> lb (map f l) - lb (map g l) = lb (map (fun d => f d - g d) l) /\ lb (map g l) <= lb (map f l).
Proof. intros H. induction H as [|d l Hd H IH]; cbn [map lb]; [lia|]. destruct IH as [I1 I2]. rewrite <- I1. lia. Qed.
Lemma lb_lt l : isb l -> lb l < 256 ^ N.of_nat (length l).
Proof.
  intros H. induction H as [|d l Hd H IH]; [reflexivity|]. cbn [lb length]. replace (N.of_nat (S (length l))) with (N.succ (N.of_nat (length l))) by lia.
  rewrite N.pow_succ_r'. lia.
Qed.
Fixpoint sh4 (l : list N) : list N := match l with [] => [] | d :: r => (d / 16 + 16 * (hd 0 r mod 16)) :: sh4 r end.
Lemma lb_mod16 l : lb l mod 16 = hd 0 l mod 16.
Proof. destruct l; cbn [lb hd]; [reflexivity|lia]. Qed.
Lemma lb_sh4 l : isb l -> lb l / 16 = lb (sh4 l).
Proof.
  intros H. induction H as [|d l Hd H IH]; [reflexivity|]. cbn [lb sh4]. rewrite <- IH. pose proof (lb_mod16 l). lia.
Qed.

(** the per-byte computation *)
Definition y1b (d : N) : N := d - N.land (N.shiftr d 1) 0x55.
Definition y2b (d : N) : N := N.land (N.shiftr (y1b d) 0) 0x33 + N.land (N.shiftr (y1b d) 2) 0x33.
Definition popb (d : N) : N := N.land (N.shiftr (y2b d + y2b d / 16) 0) 15.
Definition byte_check (d : N) : bool :=
  (N.land (N.shiftr d 1) 0x55 <=? d) && (y1b d <? 256) && (y2b d mod 16 <=? 4) && (y2b d / 16 <=? 4) && (popb d =? N.of_nat (count_spec (digits 8 d))).
Lemma bytes_all (P : N -> bool) : forallb (fun k => P (N.of_nat k)) (seq 0 256) = true -> forall d, d < 256 -> P d = true.
Proof. intros H d Hd. rewrite forallb_forall in H. specialize (H (N.to_nat d)). rewrite N2Nat.id in H. apply H, in_seq. lia. Qed.
Lemma byte_ok d : d < 256 -> N.land (N.shiftr d 1) 0x55 <= d /\ y1b d < 256 /\ y2b d mod 16 <= 4 /\ y2b d / 16 <= 4 /\ popb d = N.of_nat (count_spec (digits 8 d)).
Proof.
  intros Hd. assert (H : byte_check d = true) by (revert d Hd; apply bytes_all; vm_compute; reflexivity).
  unfold byte_check in H. rewrite !andb_true_iff in H. destruct H as ((((H1 & H2) & H3) & H4) & H5).
  apply N.leb_le in H1, H3, H4. apply N.ltb_lt in H2. apply N.eqb_eq in H5. auto.
Qed.
Lemma digits_split n d x : d < 256 -> digits (8 + n) (d + 256 * x) = digits 8 d ++ digits n x.
Proof.
  intros Hd. apply list_ext; [rewrite app_length, !digits_length; lia|]. intros i Hi. rewrite digits_length in Hi.
  rewrite nthb_app, !digits_nth, digits_length. destruct (Nat.ltb_spec i (8 + n)), (Nat.ltb_spec i 8); try lia; cbn [andb].
  - apply tb_cons_low; [assumption|lia].
  - rewrite tb_cons_high by (assumption || lia). destruct (Nat.ltb_spec (i - 8) n); [|lia]. cbn [andb]. f_equal. lia.
Qed.
Definition sum (l : list N) : N := fold_right N.add 0 l.
Lemma count_lb l : isb l -> N.of_nat (count_spec (digits (8 * length l) (lb l))) = sum (map popb l).
Proof.
  intros H. induction H as [|d l Hd H IH]; [reflexivity|]. cbn [length lb map sum fold_right].
  replace (8 * S (length l))%nat with (8 + 8 * length l)%nat by lia. rewrite digits_split by assumption.
  rewrite count_app, Nat2N.inj_add, IH. f_equal. symmetry. apply byte_ok. assumption.
Qed.
(** the low nibble of  d + d/16 + 16*(next byte mod 16)  is that of  d + d/16 *)
Lemma step3 l : isb l -> Forall (fun d => d mod 16 <= 4 /\ d / 16 <= 4) l ->
  N.land (lb l + lb l / 16) (lb (replicate (length l) 15)) = lb (map (fun d => N.land (N.shiftr (d + d / 16) 0) 15) l).
Proof.
  intros Hb H. rewrite lb_sh4 by assumption.
  replace (N.land (lb l + lb (sh4 l)) (lb (replicate (length l) 15))) with (N.land (N.shiftr (lb l + lb (sh4 l)) 0) (lb (replicate (length l) 15))) by (rewrite N.shiftr_0_r; reflexivity).
  induction H as [|d l [H1 H2] H IH]; [reflexivity|]. inversion_clear Hb as [|? ? Hd Hb'].
  cbn [lb sh4 replicate length map]. rewrite <- IH by assumption.
  assert (Hh : hd 0 l mod 16 <= 4) by (destruct H; cbn [hd]; lia). clear IH.
  set (h := hd 0 l mod 16) in *.
  replace (d + 256 * lb l + (d / 16 + 16 * h + 256 * lb (sh4 l))) with ((d + d / 16 + 16 * h) + 256 * (lb l + lb (sh4 l))) by lia.
  rewrite land_mask_byte; [|lia|reflexivity|lia]. f_equal. rewrite !N.shiftr_0_r. change 15 with (N.ones 4). rewrite !N.land_ones. change (2 ^ 4) with 16. lia.
Qed.
Lemma mul_top c0 c1 c2 c3 c4 c5 c6 c7 : c0 <= 8 -> c1 <= 8 -> c2 <= 8 -> c3 <= 8 -> c4 <= 8 -> c5 <= 8 -> c6 <= 8 -> c7 <= 8 ->
  wshr (wmul 64 (lb [c0;c1;c2;c3;c4;c5;c6;c7]) 0x0101010101010101) 56 = sum [c0;c1;c2;c3;c4;c5;c6;c7].
Proof.
  intros. unfold wshr, wmul. rewrite N.shiftr_div_pow2. cbn [lb sum fold_right]. change (256 * 0) with 0. rewrite !N.add_0_r.
  change (2 ^ 64) with 0x10000000000000000. change (2 ^ 56) with 0x100000000000000.
  set (s := c0 + (c1 + (c2 + (c3 + (c4 + (c5 + (c6 + c7))))))).
  set (low := c0 + 256 * ((c0 + c1) + 256 * ((c0 + c1 + c2) + 256 * ((c0 + c1 + c2 + c3) + 256 * ((c0 + c1 + c2 + c3 + c4) + 256 * ((c0 + c1 + c2 + c3 + c4 + c5) + 256 * (c0 + c1 + c2 + c3 + c4 + c5 + c6))))))).
  set (up := (c1 + c2 + c3 + c4 + c5 + c6 + c7) + 256 * ((c2 + c3 + c4 + c5 + c6 + c7) + 256 * ((c3 + c4 + c5 + c6 + c7) + 256 * ((c4 + c5 + c6 + c7) + 256 * ((c5 + c6 + c7) + 256 * ((c6 + c7) + 256 * c7)))))).
  assert (Hlow : low < 0x100000000000000) by (unfold low; lia).
  assert (Hs : s <= 64) by (unfold s; lia).
  replace ((c0 + 256 * (c1 + 256 * (c2 + 256 * (c3 + 256 * (c4 + 256 * (c5 + 256 * (c6 + 256 * c7))))))) * 0x0101010101010101)
    with ((low + 0x100000000000000 * s) + up * 0x10000000000000000) by (unfold low, s, up; lia).
  rewrite N.mod_add by lia. rewrite N.mod_small by lia. rewrite (N.mul_comm _ s), N.div_add, N.div_small by lia. lia.
Qed.

Theorem popcount64_ok w : w64 w -> popcount64 w = N.of_nat (count_spec (digits 64 w)).
Proof.
  intros Hw. set (l := bytes 8 w). assert (Hl : lb l = w) by (apply bytes_ok; exact Hw).
  assert (Hb : isb l) by apply bytes_isb. assert (Hn : length l = 8%nat) by apply bytes_len.
  assert (Hall : forall P : N -> Prop, (forall d, d < 256 -> P d) -> Forall P l) by (intros P HP; eapply Forall_impl; [exact Hb|exact HP]).
  rewrite <- Hl. pose proof (count_lb l Hb) as Hc. rewrite Hn in Hc. change (8 * 8)%nat with 64%nat in Hc. rewrite Hc. clearbody l. clear Hc Hl Hw w.
  assert (Hid : lb l = lb (map (fun d => d) l)) by (rewrite map_id; reflexivity).
  unfold popcount64, wshr.
  (* step 1 *)
  replace 0x5555555555555555 with (lb (replicate (length l) 0x55)) by (rewrite Hn; reflexivity).
  rewrite (land_mask 1 0x55 l Hb) by (reflexivity || lia).
  destruct (lb_sub (fun d => d) (fun d => N.land (N.shiftr d 1) 0x55) l) as [S1 S2]; [apply Hall; intros d Hd; apply byte_ok; assumption|].
  rewrite <- Hid in S1, S2. pose proof (lb_lt l Hb) as Hlt. rewrite Hn in Hlt.
  rewrite wsub_small by (exact S2 || exact Hlt). rewrite S1. change (fun d => d - N.land (N.shiftr d 1) 0x55) with y1b.
  (* step 2 *)
  set (l1 := map y1b l). assert (Hn1 : length l1 = 8%nat) by (unfold l1; rewrite map_length; assumption).
  assert (Hb1 : isb l1) by (unfold isb, l1; apply List.Forall_map, Hall; intros d Hd; apply byte_ok; assumption).
  replace 0x3333333333333333 with (lb (replicate (length l1) 0x33)) by (rewrite Hn1; reflexivity).
  replace (N.land (lb l1) (lb (replicate (length l1) 0x33))) with (N.land (N.shiftr (lb l1) 0) (lb (replicate (length l1) 0x33))) by (rewrite N.shiftr_0_r; reflexivity).
  rewrite !(land_mask _ 0x33 l1 Hb1) by (reflexivity || lia).
  unfold wadd at 2 3. rewrite !lb_add. unfold l1. rewrite !map_map. change (fun d => N.land (N.shiftr (y1b d) 0) 0x33 + N.land (N.shiftr (y1b d) 2) 0x33) with y2b.
  set (l2 := map y2b l). assert (Hn2 : length l2 = 8%nat) by (unfold l2; rewrite map_length; assumption).
  assert (Hnib : Forall (fun d => d mod 16 <= 4 /\ d / 16 <= 4) l2) by (unfold l2; apply List.Forall_map, Hall; intros d Hd; split; apply byte_ok; assumption).
  assert (Hb2 : isb l2) by (unfold isb; eapply Forall_impl; [exact Hnib|]; cbv beta; intros d Hd; lia).
  pose proof (lb_lt l2 Hb2) as Hlt2. rewrite Hn2 in Hlt2.
  rewrite (N.mod_small (lb l2)) by exact Hlt2.
  (* step 3 *)
  rewrite (N.shiftr_div_pow2 (lb l2) 4). change (2 ^ 4) with 16.
  replace 0x0f0f0f0f0f0f0f0f with (lb (replicate (length l2) 15)) by (rewrite Hn2; reflexivity).
  assert (Hsum : lb l2 + lb l2 / 16 < 2 ^ 64).
  { destruct l as [|a0 [|a1 [|a2 [|a3 [|a4 [|a5 [|a6 [|a7 [|]]]]]]]]]; cbn in Hn; try discriminate. unfold l2 in *. cbn [map lb] in *.
    inversion_clear Hnib. repeat match goal with H : Forall _ (_ :: _) |- _ => inversion_clear H end. change (2 ^ 64) with 0x10000000000000000. clear - H H0 H1 H2 H3 H4 H5 H6.
    destruct H, H1, H0, H2, H3, H4, H5, H6. lia. }
  unfold wadd. rewrite N.mod_small by exact Hsum. rewrite step3 by assumption.
  unfold l2. rewrite map_map. change (fun x => N.land (N.shiftr (y2b x + y2b x / 16) 0) 15) with popb.
  fold (wshr (wmul 64 (lb (map popb l)) 0x0101010101010101) 56).
  assert (Hp : Forall (fun c => c <= 8) (map popb l)).
  { apply List.Forall_map, Hall. intros d Hd. destruct (byte_ok d Hd) as (_ & _ & _ & _ & ->). pose proof (count_le (digits 8 d)) as Hf. rewrite digits_length in Hf. lia. }
  destruct l as [|a0 [|a1 [|a2 [|a3 [|a4 [|a5 [|a6 [|a7 [|]]]]]]]]]; cbn in Hn; try discriminate. cbn [map] in *.
  repeat match goal with H : Forall _ (_ :: _) |- _ => inversion_clear H end. apply mul_top; assumption.
Qed.

(** ** De Bruijn scan *)
Lemma lxor_pred bb : bb <> 0 -> w64 bb -> N.lxor bb (wsub 64 bb 1) = N.ones (ctz bb + 1).
Proof.
  intros Hn Hw. unfold w64 in Hw. rewrite wsub_small by lia.
  destruct (ctz_shape bb Hn) as [q Hq]. set (c := ctz bb) in *.
  assert (Hp : 2 ^ c <> 0) by (apply N.pow_nonzero; lia).
  assert (E : bb - 1 = N.ones c + 2 ^ c * (2 * q)) by (rewrite N.ones_equiv; lia).
  apply N.bits_inj. intros i. rewrite N.lxor_spec, E, Hq.
  assert (T1 : N.testbit (2 ^ c * (2 * q + 1)) i = (c <=? i) && N.testbit (2 * q + 1) (i - c)).
  { rewrite N.mul_comm, <- N.shiftl_mul_pow2. destruct (N.leb_spec c i); [apply N.shiftl_spec_high'; assumption|apply N.shiftl_spec_low; assumption]. }
  assert (T2 : N.testbit (N.ones c + 2 ^ c * (2 * q)) i = if i <? c then true else N.testbit (2 * q) (i - c)).
  { destruct (N.ltb_spec i c).
    - rewrite <- (N.mod_pow2_bits_low _ c) by assumption. rewrite (N.mul_comm (2 ^ c)), N.mod_add by assumption.
      rewrite N.mod_small by (rewrite N.ones_equiv; lia). apply N.ones_spec_low. assumption.
    - replace i with ((i - c) + c) at 1 by lia. rewrite <- N.div_pow2_bits. rewrite (N.mul_comm (2 ^ c)), N.div_add by assumption.
      rewrite N.div_small by (rewrite N.ones_equiv; lia). f_equal. }
  rewrite T1, T2. destruct (N.leb_spec c i), (N.ltb_spec i c); try lia; cbn [andb].
  - destruct (N.eq_dec i c) as [->|Hne].
    + rewrite N.sub_diag, N.testbit_odd_0, N.testbit_even_0. symmetry. apply N.ones_spec_low. lia.
    + replace (i - c) with (N.succ (i - c - 1)) by lia. rewrite N.testbit_odd_succ, N.testbit_even_succ by lia.
      rewrite xorb_nilpotent. symmetry. apply N.ones_spec_high. lia.
  - symmetry. apply N.ones_spec_low. lia.
Qed.
Lemma debruijn_table : forallb (fun k => match index64 !! N.to_nat (wshr (wmul 64 (N.ones (N.of_nat k + 1)) debruijn64) 58) with Some r => r =? N.of_nat k | None => false end) (seq 0 64) = true.
Proof. vm_compute. reflexivity. Qed.
Theorem countr_zero_ok bb : bb <> 0 -> w64 bb -> countr_zero bb = Ok (ctz bb).
Proof.
  intros Hn Hw. unfold countr_zero. rewrite lxor_pred by assumption. pose proof (ctz_lt bb 64 Hn Hw).
  pose proof debruijn_table as H0. rewrite forallb_forall in H0. specialize (H0 (N.to_nat (ctz bb)) ltac:(apply in_seq; lia)).
  rewrite N2Nat.id in H0. destruct (index64 !! _) as [r|]; [|discriminate]. apply N.eqb_eq in H0. subst r. reflexivity.
Qed.
