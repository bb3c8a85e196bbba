(** Well-formed control arrays; probing, lookup and slot search on them. *)
From stdpp Require Import list.
From Coq Require Import Arith NArith ZArith Lia.
From Coq Require Import ZifyBool ZifyNat ZifyN.
From Verif.Common Require Import Res Word WordFacts.
From Verif.Swiss Require Import Group GroupSpec Model Probe.
Ltac Zify.zify_post_hook ::= Z.div_mod_to_equations.
Local Open Scope nat_scope.
Local Open Scope res_scope.

Lemma load_some {A} (l : list A) i x : l !! i = Some x -> load l i = Ok x.
Proof. unfold load. intros ->. reflexivity. Qed.
Lemma load_ok {A} (l : list A) i x : load l i = Ok x -> l !! i = Some x.
Proof. unfold load. destruct (l !! i); cbn; congruence. Qed.
Lemma store_ok {A} (l : list A) i x : i < length l -> store l i x = Ok (<[i := x]> l).
Proof. unfold store. intros H. destruct (Nat.ltb_spec i (length l)); [reflexivity|lia]. Qed.

Section Inv.
Context (E : env) (HG : GroupOK (e_group E)).
Notation g := (e_group E).
Notation W := (g_width (e_group E)).

Lemma W_pow : exists w, W = 2 ^ w /\ 3 <= w <= 4.
Proof. destruct (gok_width _ HG) as [->| ->]; [exists 3|exists 4]; cbn; lia. Qed.
Lemma W_cases : W = 8 \/ W = 16.
Proof. apply (gok_width _ HG). Qed.

(** a byte that may sit at a slot position *)
Definition sb (c : Z) : Prop := c = kEmpty \/ c = kDeleted \/ (0 <= c < 128)%Z.

(** any value a control byte (int8_t) may have *)
Definition s8 (c : Z) : Prop := (-128 <= c < 128)%Z.
Lemma sb_s8 c : sb c -> s8 c.
Proof using. unfold sb, s8, kEmpty, kDeleted. lia. Qed.

Record wfc (ctrl : list Z) (cap : nat) : Prop := {
  wfc_cap : exists k, 1 <= k <= 63 /\ S cap = 2 ^ k;
  wfc_len : length ctrl = cap + W + 1;
  wfc_sent : ctrl !! cap = Some kSentinel;
  wfc_byte : forall i, i < cap -> exists c, ctrl !! i = Some c /\ sb c;
  wfc_clone : forall j, j < W - 1 -> ctrl !! (S cap + j) = if j <? cap then ctrl !! j else Some kEmpty;
  wfc_last : exists c, ctrl !! (cap + W) = Some c /\ s8 c
}.

Lemma pow2_div_cases a b : 2 ^ a < 2 ^ b -> 2 * 2 ^ a <= 2 ^ b.
Proof.
  intros H. assert (a < b).
  { destruct (Nat.lt_ge_cases a b); [assumption|]. assert (2 ^ b <= 2 ^ a) by (apply Nat.pow_le_mono_r; lia). lia. }
  change (2 * 2 ^ a) with (2 ^ S a). apply Nat.pow_le_mono_r; lia.
Qed.

Lemma cap_small cap : (exists k, 1 <= k <= 63 /\ S cap = 2 ^ k) -> S cap < W -> 2 * S cap <= W.
Proof.
  intros (k & _ & Hk). destruct W_pow as (w & -> & _). rewrite Hk. apply pow2_div_cases.
Qed.

Definition covers (cap o i : nat) : Prop := exists d, d < W /\ d < S cap /\ (o + d) mod S cap = i.
Definition nempty (ctrl : list Z) (cap o : nat) : Prop :=
  W <= S cap /\ forall d, d < W -> ctrl !! ((o + d) mod S cap) <> Some kEmpty.
Definition poffh (cap : nat) (h : N) (n : nat) : nat := poff W (S cap) (probe_start h cap) n.
Definition reach (ctrl : list Z) (cap : nat) (h : N) (i : nat) : Prop :=
  exists n, n <= cap /\ covers cap (poffh cap h n) i /\
            forall n', n' < n -> nempty ctrl cap (poffh cap h n').

Lemma poffh_le cap h n : poffh cap h n <= cap.
Proof. unfold poffh. pose proof (poff_lt W (S cap) (probe_start h cap) n ltac:(lia)). lia. Qed.

Lemma mod_wrap M x : x < M -> x mod M = x.
Proof. apply Nat.mod_small. Qed.
Lemma mod_wrap2 M x : M <= x -> x < 2 * M -> x mod M = x - M.
Proof.
  intros. replace x with (x - M + 1 * M) at 1 by lia. rewrite Nat.mod_add by lia. apply Nat.mod_small. lia.
Qed.

Lemma byte_cases ctrl cap o d : wfc ctrl cap -> o <= cap -> d < W ->
  (o + d < 2 * cap + 1 /\ ctrl !! (o + d) = ctrl !! ((o + d) mod S cap)) \/
  (S cap < W /\ S cap <= d /\ ctrl !! (o + d) = Some kEmpty).
Proof.
  intros Hwf Ho Hd. pose proof W_cases as HW.
  destruct (Nat.lt_ge_cases (o + d) (S cap)) as [Hlt|Hge].
  - left. split; [|rewrite mod_wrap by assumption; reflexivity].
    destruct (wfc_cap _ _ Hwf) as (k & Hk1 & Hk2).
    assert (2 <= S cap). { rewrite Hk2. change 2 with (2 ^ 1) at 1. apply Nat.pow_le_mono_r; lia. } lia.
  - pose proof (wfc_clone _ _ Hwf (o + d - S cap) ltac:(lia)) as Hc.
    replace (S cap + (o + d - S cap)) with (o + d) in Hc by lia. rewrite Hc.
    destruct (Nat.ltb_spec (o + d - S cap) cap) as [Hl|Hl].
    + left. split; [lia|]. rewrite mod_wrap2 by lia. reflexivity.
    + right. repeat split; [|lia].
      pose proof (cap_small cap (wfc_cap _ _ Hwf)). lia.
Qed.

Lemma byte_lt_M ctrl cap o d : wfc ctrl cap -> o <= cap -> d < W -> d < S cap ->
  ctrl !! (o + d) = ctrl !! ((o + d) mod S cap).
Proof.
  intros Hwf Ho Hd Hm. destruct (byte_cases _ _ _ _ Hwf Ho Hd) as [[_ ?]|?]; [assumption|lia].
Qed.

Lemma lookup_window (l : list Z) o n d : d < n -> take n (drop o l) !! d = l !! (o + d).
Proof. intros. rewrite lookup_take by assumption. apply lookup_drop. Qed.

Lemma sb_valid c : sb c -> valid_ctrl c.
Proof. unfold sb, valid_ctrl, kEmpty, kDeleted. lia. Qed.

Lemma window_ok ctrl cap o : wfc ctrl cap -> o <= cap ->
  exists w, window E ctrl o = Ok w /\ length w = W /\ Forall valid_ctrl w /\
            forall d, d < W -> w !! d = ctrl !! (o + d).
Proof.
  intros Hwf Ho. pose proof (wfc_len _ _ Hwf) as Hlen. pose proof W_cases as HW.
  exists (take W (drop o ctrl)). unfold window.
  destruct (Nat.leb_spec (o + W) (length ctrl)); [|lia].
  assert (Hl : length (take W (drop o ctrl)) = W) by (rewrite take_length, drop_length; lia).
  split; [reflexivity|]. split; [assumption|]. split.
  - apply Forall_lookup. intros d c Hd.
    assert (d < W) by (apply lookup_lt_Some in Hd; lia).
    rewrite lookup_window in Hd by assumption.
    destruct (byte_cases ctrl cap o d Hwf Ho ltac:(assumption)) as [[_ Hb]|(_ & _ & Hb)].
    + rewrite Hb in Hd. set (i := (o + d) mod S cap) in *.
      assert (i < S cap) by (apply Nat.mod_upper_bound; lia).
      destruct (Nat.eq_dec i cap) as [->|].
      * rewrite (wfc_sent _ _ Hwf) in Hd. injection Hd as <-. unfold valid_ctrl, kSentinel. lia.
      * destruct (wfc_byte _ _ Hwf i ltac:(lia)) as (c' & Hc' & Hs).
        rewrite Hc' in Hd. injection Hd as <-. apply sb_valid. assumption.
    + rewrite Hb in Hd. injection Hd as <-. unfold valid_ctrl, kEmpty. lia.
  - intros d Hd. apply lookup_window. assumption.
Qed.

Lemma any_empty_nempty ctrl cap o w : wfc ctrl cap -> o <= cap -> window E ctrl o = Ok w ->
  g_any_empty g w = false <-> nempty ctrl cap o.
Proof.
  intros Hwf Ho Hw. destruct (window_ok _ _ _ Hwf Ho) as (w' & Hw' & Hl & Hv & Hb).
  rewrite Hw in Hw'. injection Hw' as <-.
  pose proof (gok_any_empty _ HG w Hl Hv) as Hae.
  assert (Hae' : g_any_empty g w = false <-> forall i, w !! i <> Some (-128)%Z).
  { destruct (g_any_empty g w).
    - split; [discriminate|]. intros Hno. destruct (proj1 Hae eq_refl) as [i Hi]. exfalso. eapply Hno; eauto.
    - split; [|reflexivity]. intros _ i Hi. assert (false = true) by (apply Hae; eauto). discriminate. }
  rewrite Hae'. clear Hae Hae'. unfold nempty. split.
  - intros Hno. assert (HWM : W <= S cap).
    { destruct (Nat.le_gt_cases W (S cap)) as [|Hgt]; [assumption|]. exfalso.
      pose proof (cap_small cap (wfc_cap _ _ Hwf) Hgt) as H2.
      apply (Hno (2 * S cap - 1 - o)). rewrite Hb by lia.
      replace (o + (2 * S cap - 1 - o)) with (S cap + cap) by lia.
      rewrite (wfc_clone _ _ Hwf) by lia. destruct (Nat.ltb_spec cap cap); [lia|reflexivity]. }
    split; [assumption|]. intros d Hd He. apply (Hno d). rewrite Hb by assumption.
    rewrite (byte_lt_M _ cap) by (try assumption; lia). exact He.
  - intros [HWM Hno] i Hi. assert (Hil : i < W) by (apply lookup_lt_Some in Hi; lia).
    apply (Hno i Hil). rewrite <- (byte_lt_M _ cap) by (try assumption; lia). rewrite <- Hb by assumption. exact Hi.
Qed.

Lemma cover_ex cap o i : (exists k, 1 <= k <= 63 /\ S cap = 2 ^ k) -> o <= cap -> i <= cap ->
  exists n, n <= cap /\ covers cap (poff W (S cap) o n) i /\ (S cap < W -> n = 0).
Proof.
  intros (k & Hk & HM) Ho Hi. destruct W_pow as (w & HW & Hw).
  destruct (Nat.lt_ge_cases (S cap) W) as [Hs|Hl].
  - exists 0. split; [lia|]. split; [|reflexivity]. rewrite poff_0 by lia. unfold covers.
    destruct (Nat.le_gt_cases o i).
    + exists (i - o). repeat split; try lia. replace (o + (i - o)) with i by lia. apply mod_wrap. lia.
    + exists (i + S cap - o). repeat split; try lia. rewrite mod_wrap2 by lia. lia.
  - assert (w <= k).
    { destruct (Nat.le_gt_cases w k); [assumption|].
      assert (2 ^ k < 2 ^ w) by (apply Nat.pow_lt_mono_r; lia). lia. }
    destruct (probe_cover w k o i) as (n & d & Hn & Hd & He); [assumption|lia|lia|].
    exists n. split.
    + assert (2 ^ (k - w) <= 2 ^ k) by (apply Nat.pow_le_mono_r; lia). lia.
    + split; [|lia]. exists d. rewrite HM. split; [lia|]. split; [lia|]. rewrite HW. exact He.
Qed.

Lemma covers_byte ctrl cap o i : wfc ctrl cap -> o <= cap -> covers cap o i ->
  exists d, d < W /\ d < S cap /\ (o + d) mod S cap = i /\ ctrl !! (o + d) = ctrl !! i.
Proof.
  intros Hwf Ho (d & H1 & H2 & H3). exists d. repeat split; try assumption.
  rewrite <- H3. apply byte_lt_M; assumption.
Qed.

Lemma probe_next_off cap h n : (exists k, 1 <= k <= 63 /\ S cap = 2 ^ k) ->
  probe_next E cap (poffh cap h n) (n * W) = (poffh cap h (S n), S n * W).
Proof.
  intros (k & _ & HM). unfold probe_next, poffh. rewrite (land_cap k) by assumption.
  rewrite poff_S by lia. f_equal. lia.
Qed.
Lemma probe_at_mod cap o i : (exists k, 1 <= k <= 63 /\ S cap = 2 ^ k) -> probe_at cap o i = (o + i) mod S cap.
Proof. intros (k & _ & HM). unfold probe_at. apply (land_cap k). assumption. Qed.
Lemma poffh_0 cap h : (exists k, 1 <= k <= 63 /\ S cap = 2 ^ k) -> probe_start h cap = poffh cap h 0.
Proof.
  intros (k & _ & HM). unfold poffh. rewrite poff_0; [reflexivity|]. eapply probe_start_lt. eassumption.
Qed.

(** ** find_first_non_full *)
Definition nonfull_at (ctrl : list Z) (i : nat) : Prop := exists c, ctrl !! i = Some c /\ (c < -1)%Z.
Definition allfull (ctrl : list Z) (cap o : nat) : Prop :=
  forall d, d < W -> ~ nonfull_at ctrl (o + d).

Lemma ffnf_loop_ok ctrl cap h nstar i : wfc ctrl cap -> i < cap -> nonfull_at ctrl i ->
  covers cap (poffh cap h nstar) i -> (S cap < W -> nstar = 0) ->
  forall fuel n, n <= nstar -> nstar - n < fuel ->
  exists m p, ffnf_loop E fuel ctrl cap (poffh cap h n) (n * W) = Ok p /\ n <= m <= nstar /\
    p < cap /\ nonfull_at ctrl p /\ covers cap (poffh cap h m) p /\
    forall n', n <= n' < m -> W <= S cap /\ allfull ctrl cap (poffh cap h n').
Proof.
  intros Hwf Hi Hnf Hcov Hsm. induction fuel as [|f IH]; intros n Hn Hf; [lia|].
  cbn [ffnf_loop].
  destruct (window_ok _ _ _ Hwf (poffh_le cap h n)) as (w & Hw & Hl & Hv & Hb). rewrite Hw. cbn [rbind].
  destruct (g_first_nonfull g w) as [d|] eqn:Ed.
  - destruct (gok_nonfull_some _ HG w d Hl Hv Ed) as [(c & Hc & Hneg) Hbef].
    assert (Hd : d < W) by (apply lookup_lt_Some in Hc; lia).
    rewrite probe_at_mod by apply (wfc_cap _ _ Hwf).
    assert (HdM : d < S cap).
    { destruct (Nat.lt_ge_cases d (S cap)) as [|Hge]; [assumption|]. exfalso.
      assert (nstar = 0) by (apply Hsm; lia). subst nstar. assert (n = 0) by lia. subst n.
      destruct (covers_byte _ _ _ _ Hwf (poffh_le cap h 0) Hcov) as (d' & Hd' & Hd'M & _ & Hd'b).
      destruct Hnf as (c' & Hc' & Hneg'). rewrite Hc' in Hd'b. rewrite <- Hb in Hd'b by assumption.
      pose proof (Hbef d' c' ltac:(lia) Hd'b). lia. }
    assert (Hbyte := byte_lt_M _ _ _ _ Hwf (poffh_le cap h n) Hd HdM).
    rewrite Hb in Hc by assumption. rewrite Hbyte in Hc.
    set (p := (poffh cap h n + d) mod S cap) in *.
    assert (Hp : p < S cap) by (apply Nat.mod_upper_bound; lia).
    assert (Hpc : p <> cap).
    { intros ->. rewrite (wfc_sent _ _ Hwf) in Hc. injection Hc as <-. unfold kSentinel in Hneg. lia. }
    exists n, p. split; [reflexivity|]. split; [lia|]. split; [lia|].
    split; [exists c; split; assumption|]. split; [exists d; repeat split; assumption|]. intros; lia.
  - pose proof (gok_nonfull_none _ HG w Hl Hv Ed) as Hall.
    assert (Haf : allfull ctrl cap (poffh cap h n)).
    { intros d Hd (c & Hc & Hneg). rewrite <- Hb in Hc by assumption. apply Hall in Hc. lia. }
    assert (Hne : n <> nstar).
    { intros ->. destruct (covers_byte _ _ _ _ Hwf (poffh_le cap h nstar) Hcov) as (d & Hd & _ & _ & Hdb).
      destruct Hnf as (c & Hc & Hneg). apply (Haf d Hd). exists c. split; [congruence|assumption]. }
    rewrite (probe_next_off cap h n (wfc_cap _ _ Hwf)).
    destruct (IH (S n) ltac:(lia) ltac:(lia)) as (m & p & Hr & Hm & Hp & Hpn & Hpc & Hprev).
    exists m, p. split; [exact Hr|]. split; [lia|]. split; [assumption|]. split; [assumption|].
    split; [assumption|]. intros n' Hn'. destruct (Nat.eq_dec n' n) as [->|].
    + split; [|assumption]. destruct (Nat.le_gt_cases W (S cap)); [assumption|]. 
      assert (nstar = 0) by (apply Hsm; lia). lia.
    + apply Hprev. lia.
Qed.

(** Where there is a slot that is not full, find_first_non_full stops at such a slot, and every
    group probed before it is entirely full. *)
Lemma ffnf_ok ctrl cap h : wfc ctrl cap -> (exists i, i < cap /\ nonfull_at ctrl i) ->
  exists m p, find_first_non_full E ctrl cap h = Ok p /\ m <= cap /\ p < cap /\ nonfull_at ctrl p /\
    covers cap (poffh cap h m) p /\
    forall n', n' < m -> W <= S cap /\ allfull ctrl cap (poffh cap h n').
Proof.
  intros Hwf (i & Hi & Hnf). pose proof (wfc_cap _ _ Hwf) as Hcap.
  destruct (cover_ex cap (probe_start h cap) i Hcap) as (nstar & Hns & Hcov & Hsm); [|lia|].
  { rewrite poffh_0 by assumption. apply poffh_le. }
  destruct (ffnf_loop_ok ctrl cap h nstar i Hwf Hi Hnf Hcov Hsm (S cap) 0) as (m & p & Hr & Hm & Hrest); [lia|lia|].
  exists m, p. unfold find_first_non_full. rewrite poffh_0 by assumption. split; [exact Hr|].
  split; [lia|]. destruct Hrest as (Hp & Hpn & Hpc & Hprev). split; [assumption|]. split; [assumption|].
  split; [assumption|]. intros n' Hn'. apply Hprev. lia.
Qed.

Lemma allfull_nempty ctrl cap o : wfc ctrl cap -> o <= cap -> W <= S cap -> allfull ctrl cap o -> nempty ctrl cap o.
Proof.
  intros Hwf Ho HWM Haf. split; [assumption|]. intros d Hd He. apply (Haf d Hd). exists kEmpty.
  rewrite (byte_lt_M _ cap) by (try assumption; lia). split; [assumption|]. unfold kEmpty. lia.
Qed.

(** A small table whose slots are all full: the search stops on the sentinel. *)
Lemma ffnf_small_full ctrl cap h : wfc ctrl cap -> S cap < W -> 
  (forall i, i < cap -> ~ nonfull_at ctrl i) ->
  find_first_non_full E ctrl cap h = Ok cap.
Proof.
  intros Hwf Hs Hfull. pose proof (wfc_cap _ _ Hwf) as Hcap. unfold find_first_non_full.
  rewrite poffh_0 by assumption. cbn [ffnf_loop]. set (o := poffh cap h 0).
  assert (Ho : o <= cap) by apply poffh_le.
  destruct (window_ok _ _ _ Hwf Ho) as (w & Hw & Hl & Hv & Hb). rewrite Hw. cbn [rbind].
  pose proof (cap_small cap Hcap Hs) as H2.
  assert (Hfirst : w !! (2 * S cap - 1 - o) = Some kEmpty).
  { rewrite Hb by lia. replace (o + (2 * S cap - 1 - o)) with (S cap + cap) by lia.
    rewrite (wfc_clone _ _ Hwf) by lia. destruct (Nat.ltb_spec cap cap); [lia|reflexivity]. }
  destruct (g_first_nonfull g w) as [d|] eqn:Ed.
  - destruct (gok_nonfull_some _ HG w d Hl Hv Ed) as [(c & Hc & Hneg) Hbef].
    assert (Hd : d < W) by (apply lookup_lt_Some in Hc; lia).
    rewrite probe_at_mod by assumption.
    assert (d = 2 * S cap - 1 - o).
    { destruct (Nat.lt_trichotomy d (2 * S cap - 1 - o)) as [Hlt|[?|Hgt]]; [|assumption|].
      - exfalso. rewrite Hb in Hc by assumption.
        destruct (byte_cases ctrl cap o d Hwf Ho Hd) as [[_ Hbc]|(_ & HdM & Hbc)].
        + rewrite Hbc in Hc. set (i := (o + d) mod S cap) in *.
          assert (i < S cap) by (apply Nat.mod_upper_bound; lia).
          destruct (Nat.eq_dec i cap) as [Hic|].
          * rewrite Hic, (wfc_sent _ _ Hwf) in Hc. injection Hc as <-. unfold kSentinel in Hneg. lia.
          * apply (Hfull i); [lia|]. exists c. split; assumption.
        + (* d in the tail of empties: then o + d >= 2M - 1 *)
          assert (Hcl := wfc_clone _ _ Hwf (o + d - S cap) ltac:(lia)).
          replace (S cap + (o + d - S cap)) with (o + d) in Hcl by lia.
          destruct (Nat.ltb_spec (o + d - S cap) cap); [|lia].
          apply (Hfull (o + d - S cap)); [assumption|]. exists c. split; [congruence|assumption].
      - exfalso. pose proof (Hbef _ _ Hgt Hfirst). unfold kEmpty in *. lia. }
    subst d. replace (o + (2 * S cap - 1 - o)) with (S cap + cap) by lia.
    rewrite mod_wrap2 by lia. f_equal. lia.
  - exfalso. pose proof (gok_nonfull_none _ HG w Hl Hv Ed _ _ Hfirst). unfold kEmpty in *. lia.
Qed.

(** ** set_ctrl *)
Lemma clone_pos_eq cap i : (exists k, 1 <= k <= 63 /\ S cap = 2 ^ k) -> i < cap ->
  clone_pos E i cap = if (W <=? S cap) && (W <=? i) then i else i + S cap.
Proof.
  intros (k & Hk & HM) Hi. unfold clone_pos. rewrite (land_cap k) by assumption.
  destruct (sub_and_spec i W cap k HM ltac:(lia)) as [Hlt Heq].
  { destruct W_cases as [->| ->]; cbn; lia. }
  set (x := sub_and i W cap) in *. rewrite (mod_wrap _ i) in Heq by lia.
  pose proof W_cases as HW.
  destruct (Nat.leb_spec W (S cap)) as [Hl|Hs]; cbn [andb].
  - rewrite (mod_wrap _ (W - 1)) by lia.
    destruct (Nat.lt_ge_cases (x + W) (S cap)) as [Hx|Hx].
    + rewrite mod_wrap in Heq by assumption. destruct (Nat.leb_spec W i); lia.
    + rewrite mod_wrap2 in Heq by lia. destruct (Nat.leb_spec W i); lia.
  - assert (Hdiv : exists q, W = q * S cap /\ 1 <= q).
    { destruct W_pow as (w & Hw & _). exists (2 ^ (w - k)).
      assert (k <= w).
      { destruct (Nat.le_gt_cases k w); [assumption|].
        assert (2 ^ w < 2 ^ k) by (apply Nat.pow_lt_mono_r; lia). lia. }
      rewrite HM, Hw. split; [rewrite <- Nat.pow_add_r; f_equal; lia|]. pose proof (pow2_pos (w - k)). lia. }
    destruct Hdiv as (q & Hq & Hq1). rewrite Hq in Heq |- *.
    rewrite Nat.mod_add in Heq by lia. rewrite mod_wrap in Heq by assumption.
    replace (q * S cap - 1) with (cap + (q - 1) * S cap) by nia.
    rewrite Nat.mod_add by lia. rewrite mod_wrap by lia. lia.
Qed.

Lemma set_ctrl_ok ctrl cap i h : wfc ctrl cap -> i < cap -> sb h ->
  exists ctrl', set_ctrl E ctrl cap i h = Ok ctrl' /\ wfc ctrl' cap /\
    ctrl' !! i = Some h /\ (forall j, j <= cap -> j <> i -> ctrl' !! j = ctrl !! j) /\
    ctrl' !! (cap + W) = (if clone_pos E i cap =? cap + W then Some h else ctrl !! (cap + W)).
Proof.
  intros Hwf Hi Hh. pose proof (wfc_cap _ _ Hwf) as Hcap. pose proof (wfc_len _ _ Hwf) as Hlen.
  pose proof W_cases as HW.
  unfold set_ctrl. destruct (Nat.ltb_spec i cap) as [_|]; [|lia].
  rewrite store_ok by lia. cbn [rbind].
  set (c := clone_pos E i cap). assert (Hc := clone_pos_eq cap i Hcap Hi). fold c in Hc.
  assert (Hcl : c < length ctrl).
  { rewrite Hc. destruct (Nat.leb_spec W (S cap)), (Nat.leb_spec W i); cbn [andb]; lia. }
  rewrite store_ok by (rewrite insert_length; lia).
  eexists. split; [reflexivity|].
  assert (Hlow : forall j, j <= cap -> <[c:=h]> (<[i:=h]> ctrl) !! j = if j =? i then Some h else ctrl !! j).
  { intros j Hj. destruct (Nat.eqb_spec j i) as [->|Hne].
    - destruct (Nat.eq_dec c i) as [->|].
      + apply list_lookup_insert. rewrite insert_length. lia.
      + rewrite list_lookup_insert_ne by assumption. apply list_lookup_insert. lia.
    - rewrite list_lookup_insert_ne.
      + rewrite list_lookup_insert_ne by congruence. reflexivity.
      + rewrite Hc. destruct ((W <=? S cap) && (W <=? i)); lia. }
  split; [split|].
  - assumption.
  - rewrite !insert_length. assumption.
  - rewrite Hlow by lia. destruct (Nat.eqb_spec cap i); [lia|]. apply (wfc_sent _ _ Hwf).
  - intros j Hj. rewrite Hlow by lia. destruct (j =? i); [exists h; split; [reflexivity|assumption]|].
    apply (wfc_byte _ _ Hwf). assumption.
  - intros j Hj.
    destruct (Nat.eq_dec c (S cap + j)) as [Hcj|Hcj].
    + rewrite <- Hcj. rewrite list_lookup_insert by (rewrite insert_length; lia).
      assert (j = i). { rewrite Hc in Hcj. destruct ((W <=? S cap) && (W <=? i)); lia. } subst j.
      destruct (Nat.ltb_spec i cap); [|lia]. rewrite Hlow by lia. rewrite Nat.eqb_refl. reflexivity.
    + rewrite list_lookup_insert_ne by assumption. rewrite list_lookup_insert_ne by lia.
      rewrite (wfc_clone _ _ Hwf) by assumption. destruct (Nat.ltb_spec j cap) as [Hjc|]; [|reflexivity].
      rewrite Hlow by lia. destruct (Nat.eqb_spec j i) as [->|]; [|reflexivity].
      exfalso. rewrite Hc in Hcj. destruct (Nat.leb_spec W (S cap)), (Nat.leb_spec W i); cbn [andb] in Hcj; lia.
  - destruct (Nat.eq_dec c (cap + W)) as [->|Hne].
    + exists h. split; [apply list_lookup_insert; rewrite insert_length; lia|apply sb_s8; assumption].
    + rewrite list_lookup_insert_ne by assumption. rewrite list_lookup_insert_ne by lia. apply (wfc_last _ _ Hwf).
  - split; [rewrite Hlow by lia; rewrite Nat.eqb_refl; reflexivity|]. split.
    + intros j Hj Hne. rewrite Hlow by assumption. destruct (Nat.eqb_spec j i); [lia|reflexivity].
    + destruct (Nat.eqb_spec c (cap + W)) as [->|Hne].
      * apply list_lookup_insert. rewrite insert_length. lia.
      * rewrite list_lookup_insert_ne by assumption. rewrite list_lookup_insert_ne by lia. reflexivity.
Qed.

(** ** reset_ctrl *)
Lemma reset_ctrl_wf cap last : s8 last -> (exists k, 1 <= k <= 63 /\ S cap = 2 ^ k) ->
  wfc (reset_ctrl E last cap) cap /\ forall i, i < cap -> reset_ctrl E last cap !! i = Some kEmpty.
Proof.
  intros Hl8 Hcap. pose proof W_cases as HW. unfold reset_ctrl.
  assert (Hlk : forall i, i < cap + W -> i <> cap ->
            (<[cap:=kSentinel]> (replicate (cap + W) kEmpty) ++ [last]) !! i = Some kEmpty).
  { intros i Hi Hne. rewrite lookup_app_l by (rewrite insert_length, replicate_length; assumption).
    rewrite list_lookup_insert_ne by congruence. apply lookup_replicate_2. assumption. }
  split; [split|].
  - assumption.
  - rewrite app_length, insert_length, replicate_length. cbn. lia.
  - rewrite lookup_app_l by (rewrite insert_length, replicate_length; lia).
    apply list_lookup_insert. rewrite replicate_length. lia.
  - intros i Hi. exists kEmpty. split; [apply Hlk; lia|]. unfold sb. auto.
  - intros j Hj. rewrite Hlk by lia. destruct (Nat.ltb_spec j cap); [|reflexivity]. rewrite Hlk by lia. reflexivity.
  - exists last. split; [|assumption]. rewrite lookup_app_r by (rewrite insert_length, replicate_length; lia).
    rewrite insert_length, replicate_length, Nat.sub_diag. reflexivity.
  - intros i Hi. apply Hlk; lia.
Qed.

End Inv.
