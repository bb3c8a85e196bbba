(** Round trip and truncation of phmap_dump / phmap_load. *)
From stdpp Require Import list.
From Coq Require Import Arith NArith ZArith Lia.
From Coq Require Import ZifyBool ZifyNat ZifyN.
From Verif.Common Require Import Res Word WordFacts.
From Verif.Swiss Require Import Group GroupSpec Model Probe Inv TableInv Resize Ops MapSpec History Reserve Dump.
Ltac Zify.zify_post_hook ::= Z.div_mod_to_equations.
Local Open Scope nat_scope.
Local Open Scope res_scope.
Local Arguments cnt : simpl never.
Local Arguments elems : simpl never.

Lemma to_le_length n x : length (to_le n x) = n.
Proof. revert x. induction n; intros; cbn; [reflexivity|]. f_equal. apply IHn. Qed.
Lemma of_to_le n : forall x, (x < 256 ^ N.of_nat n)%N -> of_le (to_le n x) = x.
Proof.
  induction n as [|n IH]; intros x Hx; cbn [to_le of_le].
  - cbn in Hx. lia.
  - rewrite Nat2N.inj_succ, N.pow_succ_r' in Hx. rewrite IH by (apply N.div_lt_upper_bound; lia).
    pose proof (N.div_mod x 256). lia.
Qed.
Lemma read8_le old x src : (x < 2 ^ 64)%N -> read8 old (le8 x ++ src) = (x, src).
Proof.
  intros Hx. unfold read8, read, le8. rewrite to_le_length.
  rewrite take_app_alt by (rewrite to_le_length; reflexivity).
  rewrite drop_app_alt by (rewrite to_le_length; reflexivity).
  rewrite app_length, drop_ge by (rewrite !to_le_length; lia). rewrite app_nil_r.
  rewrite of_to_le; [reflexivity|]. exact Hx.
Qed.
Lemma read8_nil old : (old < 2 ^ 64)%N -> read8 old [] = (old, []).
Proof.
  intros Hx. unfold read8, read. rewrite take_nil. cbn [length]. rewrite drop_0. cbn [app].
  unfold le8. rewrite of_to_le; [|exact Hx]. reflexivity.
Qed.
Lemma read_exact dst a src : length a = length dst -> read dst (a ++ src) = (a, src).
Proof.
  intros Hl. unfold read. rewrite <- Hl, take_app, drop_app. f_equal.
  rewrite drop_ge by (rewrite app_length; lia). apply app_nil_r.
Qed.
Lemma s8_u8 c : s8 c -> s8_of (u8_of c) = c.
Proof. unfold s8, s8_of, u8_of. intros H. destruct (N.ltb_spec (Z.to_N (c mod 256)) 128); lia. Qed.

Record TrivCopy {A} (slot_size : N) (ser : A -> list N) (des : list N -> A) (raw : list N) : Prop := {
  tc_len : forall e, N.of_nat (length (ser e)) = slot_size;
  tc_raw : N.of_nat (length raw) = slot_size;
  tc_rt : forall e, des (ser e) = e
}.

Section DumpProof.
Context {K V : Type} (hash : K -> N) (eqb : K -> K -> bool) (E : env).
Context (HE : env_ok E) (HK : KeyOK hash eqb).
Notation W := (g_width (e_group E)).
Notation elt := (K * V)%type.
Notation table := (table K V).
Notation good := (@good K V hash eqb E).
Notation tinv := (@tinv K V hash eqb E).
Context (ser : elt -> list N) (des : list N -> elt) (raw : list N) (HT : TrivCopy (e_slot_size E) ser des raw).
Set Default Proof Using "HE HK HT".
Notation dump := (dump E ser raw).
Notation load_table := (load_table hash E des raw).

Lemma slot_bytes_len s : length (slot_bytes ser raw s) = length raw.
Proof using HT. destruct s as [e|]; cbn; [|reflexivity]. pose proof (tc_len _ _ _ _ HT e). pose proof (tc_raw _ _ _ _ HT). lia. Qed.
Lemma chunks_concat (l : list (option elt)) :
  chunks (length l) (length raw) (concat (map (slot_bytes ser raw) l)) = map (slot_bytes ser raw) l.
Proof using HT.
  induction l as [|s l IH]; cbn [length chunks map concat]; [reflexivity|].
  rewrite take_app_alt, drop_app_alt by (symmetry; apply slot_bytes_len). f_equal. exact IH.
Qed.
Lemma concat_len {A} (f : A -> list N) (l : list A) (l' : list (option elt)) :
  length l = length l' -> (forall x, length (f x) = length raw) ->
  length (concat (map f l)) = length (concat (map (slot_bytes ser raw) l')).
Proof using HT.
  revert l'. induction l as [|x l IH]; intros [|y l'] Hl Hf; try discriminate; [reflexivity|].
  cbn [map concat]. rewrite !app_length, Hf, slot_bytes_len. f_equal. apply IH; [injection Hl; auto|assumption].
Qed.

Lemma ctrl_s8 (t : table) : tinv t -> Forall s8 (t_ctrl t).
Proof.
  intros Ht. pose proof (ti_wfc _ _ _ _ (tv_0 _ _ _ _ Ht)) as Hwf. pose proof (wfc_len _ _ _ Hwf) as Hlen.
  destruct (W_cases E (eo_group E HE)) as [HW|HW].
  all: apply Forall_lookup; intros i c Hc; pose proof (lookup_lt_Some _ _ _ Hc) as Hi;
    destruct (Nat.lt_trichotomy i (t_cap t)) as [Hlt|[->|Hgt]];
    [destruct (wfc_byte _ _ _ Hwf i Hlt) as (c' & Hc' & Hs); rewrite Hc in Hc'; injection Hc' as <-; apply sb_s8; assumption
    |rewrite (wfc_sent _ _ _ Hwf) in Hc; injection Hc as <-; unfold s8, kSentinel; lia
    |destruct (Nat.eq_dec i (t_cap t + W)) as [->|];
      [destruct (wfc_last _ _ _ Hwf) as (c' & Hc' & Hs); rewrite Hc in Hc'; injection Hc' as <-; assumption|];
     pose proof (wfc_clone _ _ _ Hwf (i - S (t_cap t)) ltac:(lia)) as Hcl;
     replace (S (t_cap t) + (i - S (t_cap t))) with i in Hcl by lia; rewrite Hc in Hcl;
     destruct (Nat.ltb_spec (i - S (t_cap t)) (t_cap t)) as [Hl|Hl];
     [destruct (wfc_byte _ _ _ Hwf _ Hl) as (c' & Hc' & Hs); rewrite Hc' in Hcl; injection Hcl as ->; apply sb_s8; assumption
     |injection Hcl as ->; unfold s8, kEmpty; lia]].
Qed.

Lemma decode_ok (t : table) : tinv t ->
  decode_slots des (t_ctrl t) (map (slot_bytes ser raw) (t_slots t)) = t_slots t.
Proof.
  intros Ht. pose proof (tv_0 _ _ _ _ Ht) as Ht0. pose proof (ti_slen _ _ _ _ Ht0) as Hsl.
  pose proof (wfc_len _ _ _ (ti_wfc _ _ _ _ Ht0)) as Hlen.
  unfold decode_slots. apply list_eq. intros i. rewrite lookup_zip_with.
  destruct (Nat.lt_ge_cases i (t_cap t)) as [Hi|Hi].
  - destruct (slot_at hash eqb E (eo_group E HE) HK t i Ht0 Hi) as (c & s & Hc & Hs & Hrel & _).
    rewrite Hc, list_lookup_fmap, Hs. cbn. unfold IsFull. destruct s as [e|]; cbn in Hrel.
    + pose proof (H2_range (hash (fst e))). destruct (Z.leb_spec 0 c); [|lia]. cbn [slot_bytes]. rewrite (tc_rt _ _ _ _ HT). reflexivity.
    + destruct (Z.leb_spec 0 c); [lia|]. reflexivity.
  - assert (t_slots t !! i = None) as Hn by (apply lookup_ge_None_2; lia). rewrite list_lookup_fmap, Hn. cbn.
    destruct (t_ctrl t !! i); reflexivity.
Qed.

Lemma read_map_u8 (l dst : list Z) src : length l = length dst ->
  read (map u8_of dst) (map u8_of l ++ src) = (map u8_of l, src).
Proof using. intros Hl. apply read_exact. rewrite !map_length. assumption. Qed.

Lemma load_dump (t : table) rest : good t ->
  (load_table (dump t ++ rest) = BadAlloc /\ (e_max_bytes E < alloc_size E (N.of_nat (t_cap t)))%N) \/
  exists t', load_table (dump t ++ rest) = Ok (t', rest) /\ good t' /\ t_cap t' = t_cap t /\ t_size t' = t_size t /\
    elems (t_slots t') = elems (t_slots t) /\ (t_size t <> 0 -> t' = t).
Proof.
  intros Hg. unfold Dump.load_table, Dump.dump. rewrite <- app_assoc.
  rewrite read8_le by reflexivity. change (s_version <=? s_version_base)%N with false. cbn iota.
  change (s_version - s_version_base)%N with 1%N.
  pose proof (good_size hash eqb E t Hg) as Hsz.
  assert (Hc62 : t_size t <= t_cap t /\ (N.of_nat (t_cap t) < 2 ^ 62)%N).
  { destruct Hg as [->|Ht]; [cbn; lia|]. apply (size_bound hash eqb E HE t Ht). }
  destruct Hc62 as [Hsc Hc62].
  rewrite <- app_assoc. rewrite read8_le by lia. rewrite <- app_assoc. rewrite read8_le by lia.
  destruct Hg as [->|Ht].
  { right. cbn. eexists. split; [reflexivity|]. split; [left; reflexivity|]. repeat split; congruence. }
  pose proof (tinv_cap _ _ _ t Ht) as Hv. pose proof (valid_cap_cases _ Hv) as Hcc.
  destruct (N.eqb_spec (N.of_nat (t_cap t)) 0); [lia|].
  pose proof (fits_no_wrap hash eqb E HE t (N.of_nat (t_cap t)) Ht ltac:(lia)) as Hnw.
  rewrite Nat2N.id.
  destruct (init_ok (K:=K) (V:=V) E (N.of_nat (t_cap t)) (t_size t) Hnw) as [[Hb Hbig]|(Hi & _ & _)].
  { left. rewrite Hb. cbn [rbind]. auto. }
  right. rewrite Hi. cbn [rbind]. rewrite Nat2N.id.
  destruct (Nat.eqb_spec (t_size t) 0) as [H0|H0].
  - rewrite H0. cbn [N.of_nat N.eqb app]. eexists. split; [reflexivity|]. cbn [t_cap t_size t_slots].
    rewrite elems_replicate_none. split; [|repeat split; try lia; symmetry; apply nil_length_inv; lia].
    right. destruct (fresh_tinv0 hash eqb E HE HK (V:=V) (t_cap t) 0 (growth_left_for E (t_cap t) 0) (e_junk E) (eo_junk E HE) Hv) as [Hf Hnd].
    constructor; cbn [t_slots t_ctrl t_cap t_size t_growth].
    + assumption.
    + rewrite elems_replicate_none. reflexivity.
    + rewrite Hnd. lia.
    + rewrite Hnd, (growth_left_small E HE) by (try assumption; lia). f_equal. lia.
    + intros _. assumption.
    + apply (tv_bytes _ _ _ _ Ht).
  - destruct (N.eqb_spec (N.of_nat (t_size t)) 0); [lia|].
    change (0 <? 1)%N with true. cbn iota. change (1 =? 0)%N with false. cbn iota.
    rewrite <- app_assoc. rewrite read8_le.
    2:{ rewrite (tv_growth _ _ _ _ Ht). pose proof (cap_le_growth E (t_cap t)). lia. }
    pose proof (wfc_len _ _ _ (ti_wfc _ _ _ _ (tv_0 _ _ _ _ Ht))) as Hlen.
    destruct (reset_ctrl_wf E (eo_group E HE) (t_cap t) (e_junk E) (eo_junk E HE) Hv) as [Hwf0 _].
    pose proof (wfc_len _ _ _ Hwf0) as Hlen0.
    rewrite take_ge by lia. cbn [t_ctrl t_slots t_size t_cap t_growth].
    rewrite <- app_assoc. rewrite read_map_u8 by lia.
    pose proof (ti_slen _ _ _ _ (tv_0 _ _ _ _ Ht)) as Hsl.
    rewrite read_exact.
    2:{ symmetry. apply concat_len; [rewrite replicate_length; lia|reflexivity]. }
    pose proof (chunks_concat (t_slots t)) as Hch. rewrite Hsl in Hch. rewrite Hch.
    assert (Hctrl : map s8_of (map u8_of (t_ctrl t)) = t_ctrl t).
    { rewrite map_map. rewrite <- (map_id (t_ctrl t)) at 2. apply map_ext_in. intros c Hc.
      apply s8_u8. pose proof (ctrl_s8 t Ht) as Hf. rewrite Forall_forall in Hf. apply Hf. apply elem_of_list_In. assumption. }
    rewrite Hctrl, decode_ok by assumption. cbn [rbind].
    exists t. split; [destruct t; reflexivity|]. split; [right; assumption|]. auto.
Qed.

(** cutting the file just after the four header words *)
Lemma load_truncated (t : table) : good t -> t_size t <> 0 ->
  load_table (take 32 (dump t)) = BadAlloc \/
  exists t', load_table (take 32 (dump t)) = Ok (t', []) /\ t_size t' = t_size t /\ to_list E t' = Ok [].
Proof.
  intros Hg H0. pose proof Hg as [->|Ht]; [cbn in H0; congruence|].
  pose proof (tinv_cap _ _ _ t Ht) as Hv. pose proof (valid_cap_cases _ Hv) as Hcc.
  destruct (size_bound hash eqb E HE t Ht) as [Hsc Hc62].
  assert (Hgr : (t_growth t < 2 ^ 64)%N).
  { rewrite (tv_growth _ _ _ _ Ht). pose proof (cap_le_growth E (t_cap t)). lia. }
  assert (Htake : take 32 (dump t) = le8 s_version ++ le8 (N.of_nat (t_size t)) ++ le8 (N.of_nat (t_cap t)) ++ le8 (t_growth t)).
  { unfold Dump.dump. destruct (Nat.eqb_spec (t_size t) 0); [lia|].
    unfold le8. cbn [to_le app take]. reflexivity. }
  rewrite Htake. unfold Dump.load_table. rewrite read8_le by reflexivity.
  change (s_version <=? s_version_base)%N with false. cbn iota. change (s_version - s_version_base)%N with 1%N.
  rewrite read8_le by lia. rewrite read8_le by lia.
  destruct (N.eqb_spec (N.of_nat (t_cap t)) 0); [lia|].
  pose proof (fits_no_wrap hash eqb E HE t (N.of_nat (t_cap t)) Ht ltac:(lia)) as Hnw.
  rewrite Nat2N.id.
  destruct (init_ok (K:=K) (V:=V) E (N.of_nat (t_cap t)) (t_size t) Hnw) as [[Hb Hbig]|(Hi & _ & _)].
  { left. rewrite Hb. reflexivity. }
  right. rewrite Hi. cbn [rbind]. rewrite Nat2N.id.
  destruct (N.eqb_spec (N.of_nat (t_size t)) 0); [lia|].
  change (0 <? 1)%N with true. cbn iota. change (1 =? 0)%N with false. cbn iota.
  rewrite <- (app_nil_r (le8 (t_growth t))). rewrite read8_le by assumption.
  unfold read. rewrite !take_nil, !drop_nil. cbn [length app]. rewrite !drop_0. cbn [t_ctrl t_slots t_size t_cap t_growth rbind].
  destruct (reset_ctrl_wf E (eo_group E HE) (t_cap t) (e_junk E) (eo_junk E HE) Hv) as [Hwf0 Hemp].
  destruct (fresh_tinv0 hash eqb E HE HK (V:=V) (t_cap t) 0 (growth_left_for E (t_cap t) 0) (e_junk E) (eo_junk E HE) Hv) as [Hf Hnd].
  set (t0 := @mkTable K V (reset_ctrl E (e_junk E) (t_cap t)) (replicate (t_cap t) None) 0 (t_cap t) (growth_left_for E (t_cap t) 0)) in *.
  assert (Ht0 : tinv t0).
  { constructor; cbn [t0 t_slots t_ctrl t_cap t_size t_growth].
    + assumption.
    + rewrite elems_replicate_none. reflexivity.
    + rewrite Hnd. lia.
    + rewrite Hnd, (growth_left_small E HE) by (try assumption; lia). f_equal. lia.
    + intros _. assumption.
    + apply (tv_bytes _ _ _ _ Ht). }
  assert (Hctrl : map s8_of (map u8_of (t_ctrl t0)) = t_ctrl t0).
  { rewrite map_map. rewrite <- (map_id (t_ctrl t0)) at 2. apply map_ext_in. intros c Hc.
    apply s8_u8. pose proof (ctrl_s8 t0 Ht0) as Hfa. rewrite Forall_forall in Hfa. apply Hfa. apply elem_of_list_In. assumption. }
  cbn [t0 t_ctrl] in Hctrl. rewrite Hctrl.
  pose proof (decode_ok t0 Ht0) as Hdec. cbn [t0 t_ctrl t_slots] in Hdec.
  pose proof (chunks_concat (t_slots t0)) as Hch. cbn [t0 t_slots] in Hch. rewrite replicate_length in Hch.
  assert (Hsame : map (fun _ : option elt => raw) (replicate (t_cap t) None) = map (slot_bytes ser raw) (replicate (t_cap t) None)).
  { apply map_ext_in. intros s Hs. apply elem_of_list_In, elem_of_replicate_inv in Hs. subst s. reflexivity. }
  rewrite ?take_nil, ?drop_nil. cbn [app]. rewrite Hsame, Hch, Hdec. eexists. split; [reflexivity|]. split; [reflexivity|].
  rewrite (iter_fields E _ t0) by reflexivity.
  destruct (iterate_ok hash eqb E HE HK t0 (or_intror Ht0)) as (is & _ & -> & _). cbn [t0 t_slots].
  rewrite elems_replicate_none. reflexivity.
Qed.

(** ** parallel containers *)
Definition ptoo_big (ts : list table) : Prop := exists t, In t ts /\ (e_max_bytes E < alloc_size E (N.of_nat (t_cap t)))%N.
Lemma pload_loop_dump ts rest : Forall good ts ->
  (pload_loop hash E des raw (length ts) (concat (map dump ts) ++ rest) = BadAlloc /\ ptoo_big ts) \/
  exists ts', pload_loop hash E des raw (length ts) (concat (map dump ts) ++ rest) = Ok (ts', rest) /\
    Forall2 (fun t' t => good t' /\ t_cap t' = t_cap t /\ t_size t' = t_size t /\ elems (t_slots t') = elems (t_slots t) /\
       (t_size t <> 0 -> t' = t)) ts' ts.
Proof.
  induction ts as [|t ts IH]; intros HF; cbn [length map concat pload_loop].
  - right. exists []. split; [reflexivity|constructor].
  - inversion HF as [|? ? Hg HF']; subst. rewrite <- app_assoc.
    destruct (load_dump t (concat (map dump ts) ++ rest) Hg) as [[Hb Hbig]|(t' & Hl & Hr)].
    + left. rewrite Hb. split; [reflexivity|]. exists t. split; [left; reflexivity|assumption].
    + rewrite Hl. cbn [rbind]. destruct (IH HF') as [[Hb (x & Hx & Hbig)]|(ts' & Hp & HF2)].
      * left. rewrite Hb. split; [reflexivity|]. exists x. split; [right; assumption|assumption].
      * right. rewrite Hp. cbn [rbind]. exists (t' :: ts'). split; [reflexivity|]. constructor; assumption.
Qed.
End DumpProof.
