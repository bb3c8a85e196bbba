(** The portable (SWAR) group implementation meets [GroupOK]. *)
From stdpp Require Import list.
From Coq Require Import NArith ZArith Lia Bool.
From Coq Require Import ZifyBool ZifyNat ZifyN.
From Verif.Common Require Import Word WordFacts.
From Verif.Swiss Require Import Group GroupSpec GroupProof.
Ltac Zify.zify_post_hook ::= Z.div_mod_to_equations.
Local Open Scope N_scope.
Local Arguments N.pow : simpl never.
Local Arguments N.mul : simpl never.
Local Arguments N.add : simpl never.
Local Arguments N.sub : simpl never.
Local Arguments N.div : simpl never.
Local Arguments N.modulo : simpl never.
Local Arguments N.shiftl : simpl never.
Local Arguments N.shiftr : simpl never.
Local Arguments N.land : simpl never.

Lemma def_none {A} (d : A) : default d None = d.
Proof. reflexivity. Qed.
Lemma def_some {A} (d x : A) : default d (Some x) = x.
Proof. reflexivity. Qed.

Definition byte_list (l : list N) : Prop := Forall (fun b => b < 256) l.

Lemma load_bit l b : byte_list l ->
  N.testbit (load_le l) b = N.testbit (default 0 (l !! N.to_nat (b / 8))) (b mod 8).
Proof.
  unfold byte_list. revert b. induction l as [|x l IH]; intros b Hl.
  - cbn. rewrite !N.bits_0. reflexivity.
  - inversion_clear Hl as [|? ? Hx Hl']. cbn [load_le]. change 256 with (2 ^ 8) in *.
    destruct (N.lt_ge_cases b 8) as [Hb|Hb].
    + rewrite <- (N.mod_pow2_bits_low _ 8) by assumption.
      replace (x + 2 ^ 8 * load_le l) with (x + load_le l * 2 ^ 8) by lia.
      rewrite N.mod_add by (apply N.pow_nonzero; lia).
      rewrite (N.mod_small x) by assumption.
      rewrite (N.div_small b), (N.mod_small b) by assumption. reflexivity.
    + replace b with ((b - 8) + 8) at 1 by lia. rewrite <- N.div_pow2_bits.
      replace (x + 2 ^ 8 * load_le l) with (x + load_le l * 2 ^ 8) by lia.
      rewrite N.div_add by (apply N.pow_nonzero; lia). rewrite (N.div_small x) by assumption.
      rewrite N.add_0_l, IH by assumption.
      replace (N.to_nat (b / 8)) with (S (N.to_nat ((b - 8) / 8))) by lia. cbn [lookup list_lookup].
      replace ((b - 8) mod 8) with (b mod 8) by lia. reflexivity.
Qed.

Lemma byte_of_lt c : byte_of c < 256.
Proof. unfold byte_of. lia. Qed.
Lemma byte_list_map l : byte_list (map byte_of l).
Proof. apply Forall_forall. intros b Hb. apply elem_of_list_In, in_map_iff in Hb.
  destruct Hb as (c & <- & _). apply byte_of_lt. Qed.

Lemma msbs_load : msbs = load_le (replicate 8 128).
Proof. reflexivity. Qed.
Lemma lsbs_load : lsbs = load_le (replicate 8 1).
Proof. reflexivity. Qed.

Lemma byte_list_replicate n b : b < 256 -> byte_list (replicate n b).
Proof. intros. apply Forall_replicate. assumption. Qed.

(* a word masked by msbs represents the list of its top bits *)
Lemma msbs_bit b : N.testbit msbs b = (b <? 64) && (b mod 8 =? 7).
Proof.
  rewrite msbs_load, load_bit by (apply byte_list_replicate; lia).
  destruct (N.ltb_spec b 64) as [Hb|Hb].
  - rewrite lookup_replicate_2 by lia. rewrite def_some.
    change 128 with (2 ^ 7). rewrite N.pow2_bits_eqb. lia.
  - rewrite lookup_ge_None_2 by (rewrite replicate_length; lia). rewrite def_none. apply N.bits_0.
Qed.

Lemma rep_msbs w (bl : list bool) :
  length bl = 8%nat ->
  (forall i : nat, (i < 8)%nat -> bl !! i = Some (N.testbit w (8 * N.of_nat i + 7))) ->
  mask_rep 3 7 (N.land w msbs) bl.
Proof.
  intros Hlen H b. rewrite N.land_spec, msbs_bit. split.
  - intros Hb. apply andb_prop in Hb. destruct Hb as [Hw Hb]. apply andb_prop in Hb. destruct Hb as [H1 H2].
    exists (N.to_nat (b / 8)). rewrite N.shiftl_mul_pow2. change (2 ^ 3) with 8. split; [lia|].
    rewrite H by lia. f_equal. rewrite <- Hw. f_equal. lia.
  - intros (i & -> & Hi). rewrite N.shiftl_mul_pow2. change (2 ^ 3) with 8.
    assert (i < 8)%nat by (rewrite <- Hlen; eapply lookup_lt_Some; eassumption).
    rewrite H in Hi by assumption. injection Hi as Hi.
    replace (N.of_nat i * 8 + 7) with (8 * N.of_nat i + 7) by lia. rewrite Hi.
    assert ((8 * N.of_nat i + 7 <? 64) = true) as -> by lia.
    assert (((8 * N.of_nat i + 7) mod 8 =? 7) = true) as -> by lia. reflexivity.
Qed.

Lemma p_load_bit l i j : length l = 8%nat -> (i < 8)%nat -> j < 8 ->
  exists c, l !! i = Some c /\ N.testbit (p_load l) (8 * N.of_nat i + j) = N.testbit (byte_of c) j.
Proof.
  intros Hlen Hi Hj. destruct (lookup_lt_is_Some_2 l i ltac:(lia)) as [c Hc]. exists c. split; [assumption|].
  unfold p_load. rewrite load_bit by apply byte_list_map.
  replace (N.to_nat ((8 * N.of_nat i + j) / 8)) with i by lia.
  replace ((8 * N.of_nat i + j) mod 8) with j by lia.
  change (map byte_of l) with (byte_of <$> l). rewrite list_lookup_fmap, Hc. reflexivity.
Qed.
Lemma p_load_high l b : length l = 8%nat -> 64 <= b -> N.testbit (p_load l) b = false.
Proof.
  intros Hlen Hb. unfold p_load. rewrite load_bit by apply byte_list_map.
  rewrite lookup_ge_None_2; [rewrite def_none; apply N.bits_0|]. rewrite map_length. lia.
Qed.

Lemma byte_of_full c : (0 <= c < 128)%Z -> byte_of c = Z.to_N c.
Proof. intros. unfold byte_of. rewrite Z.mod_small by lia. reflexivity. Qed.
Lemma byte7 c : valid_ctrl c -> N.testbit (byte_of c) 7 = (c <? 0)%Z.
Proof.
  intros [->|[->|[->|H]]]; [reflexivity..|]. rewrite byte_of_full by assumption.
  rewrite (testbit_high _ 7); [lia|change (2 ^ 7) with 128; lia|lia].
Qed.
Lemma byte_empty c : valid_ctrl c ->
  N.testbit (byte_of c) 7 && negb (N.testbit (byte_of c) 1) = (c =? -128)%Z.
Proof.
  intros Hv. pose proof (byte7 c Hv) as ->. destruct Hv as [->|[->|[->|H]]]; [reflexivity..|].
  destruct (c <? 0)%Z eqn:E; cbn; lia.
Qed.
Lemma byte_nonfull c : valid_ctrl c ->
  N.testbit (byte_of c) 7 && negb (N.testbit (byte_of c) 0) = (c <? -1)%Z.
Proof.
  intros Hv. pose proof (byte7 c Hv) as ->. destruct Hv as [->|[->|[->|H]]]; [reflexivity..|].
  destruct (c <? 0)%Z eqn:E; cbn; lia.
Qed.

Lemma Forall_lookup' {A} (P : A -> Prop) l i x : Forall P l -> l !! i = Some x -> P x.
Proof. intros H Hi. rewrite Forall_lookup in H. eauto. Qed.

Lemma p_empty_rep l : length l = 8%nat -> Forall valid_ctrl l ->
  mask_rep 3 7 (p_empty_mask l) (map (fun c => c =? -128)%Z l).
Proof.
  intros Hlen Hv. unfold p_empty_mask. apply rep_msbs; [rewrite map_length; assumption|].
  intros i Hi. rewrite N.land_spec, wshl_spec.
  assert ((8 * N.of_nat i + 7 <? 64) = true) as -> by lia.
  assert ((6 <=? 8 * N.of_nat i + 7) = true) as -> by lia.
  rewrite wnot_spec_low by lia. replace (8 * N.of_nat i + 7 - 6) with (8 * N.of_nat i + 1) by lia.
  destruct (p_load_bit l i 7 Hlen Hi ltac:(lia)) as (c & Hc & ->).
  destruct (p_load_bit l i 1 Hlen Hi ltac:(lia)) as (c' & Hc' & ->).
  assert (c' = c) as -> by congruence.
  change (map (fun c => (c =? -128)%Z) l) with ((fun c => (c =? -128)%Z) <$> l).
  rewrite list_lookup_fmap, Hc. cbn [fmap option_fmap option_map]. f_equal. symmetry. cbn [andb]. apply byte_empty.
  eapply Forall_lookup'; eassumption.
Qed.
Lemma p_nonfull_rep l : length l = 8%nat -> Forall valid_ctrl l ->
  mask_rep 3 7 (p_nonfull_mask l) (map (fun c => c <? -1)%Z l).
Proof.
  intros Hlen Hv. unfold p_nonfull_mask. apply rep_msbs; [rewrite map_length; assumption|].
  intros i Hi. rewrite N.land_spec, wshl_spec.
  assert ((8 * N.of_nat i + 7 <? 64) = true) as -> by lia.
  assert ((7 <=? 8 * N.of_nat i + 7) = true) as -> by lia.
  rewrite wnot_spec_low by lia. replace (8 * N.of_nat i + 7 - 7) with (8 * N.of_nat i + 0) by lia.
  destruct (p_load_bit l i 7 Hlen Hi ltac:(lia)) as (c & Hc & ->).
  destruct (p_load_bit l i 0 Hlen Hi ltac:(lia)) as (c' & Hc' & ->).
  assert (c' = c) as -> by congruence.
  change (map (fun c => (c <? -1)%Z) l) with ((fun c => (c <? -1)%Z) <$> l).
  rewrite list_lookup_fmap, Hc. cbn [fmap option_fmap option_map]. f_equal. symmetry. cbn [andb]. apply byte_nonfull.
  eapply Forall_lookup'; eassumption.
Qed.

(** ** Match: byte-wise subtraction with borrow *)
Fixpoint sb (l : list N) (b : N) : list N :=
  match l with
  | [] => []
  | x :: r => if x <? 1 + b then (x + 256 - 1 - b) :: sb r 1 else (x - 1 - b) :: sb r 0
  end.
Fixpoint bout (l : list N) (b : N) : N :=
  match l with
  | [] => b
  | x :: r => if x <? 1 + b then bout r 1 else bout r 0
  end.
Lemma sb_spec l b : b <= 1 -> byte_list l ->
  load_le l + 256 ^ N.of_nat (length l) * bout l b
  = load_le (sb l b) + load_le (replicate (length l) 1) + b.
Proof.
  revert b. induction l as [|x l IH]; intros b Hb Hl.
  - change (N.of_nat (length [])) with 0. cbn [load_le bout sb length replicate]. rewrite N.pow_0_r. lia.
  - inversion_clear Hl as [|? ? Hx Hl']. cbn [length replicate load_le sb bout].
    rewrite Nat2N.inj_succ, N.pow_succ_r'.
    destruct (N.ltb_spec x (1 + b)).
    + specialize (IH 1 ltac:(lia) Hl'). cbn [load_le]. nia.
    + specialize (IH 0 ltac:(lia) Hl'). cbn [load_le]. nia.
Qed.
Lemma sb_bytes l b : b <= 1 -> byte_list l -> byte_list (sb l b).
Proof.
  revert b. induction l as [|x l IH]; intros b Hb Hl; cbn [sb]; [constructor|].
  inversion_clear Hl as [|? ? Hx Hl']. destruct (N.ltb_spec x (1 + b)); constructor; try lia; apply IH; try lia; assumption.
Qed.
Lemma sb_length l b : length (sb l b) = length l.
Proof. revert b. induction l as [|x l IH]; intros b; cbn [sb length]; [reflexivity|]. destruct (x <? 1 + b); cbn; rewrite IH; reflexivity. Qed.
Lemma bout_le l b : b <= 1 -> bout l b <= 1.
Proof. revert b. induction l as [|x l IH]; intros b Hb; cbn [bout]; [assumption|]. destruct (x <? 1 + b); apply IH; lia. Qed.
Lemma load_lt l : byte_list l -> load_le l < 256 ^ N.of_nat (length l).
Proof.
  induction l as [|x l IH]; intros Hl; [cbn; lia|]. inversion_clear Hl as [|? ? Hx Hl'].
  cbn [length load_le]. rewrite Nat2N.inj_succ, N.pow_succ_r'. specialize (IH Hl'). nia.
Qed.
(* shape of the i-th byte of the difference *)
Lemma sb_lookup l b i x : l !! i = Some x -> b <= 1 -> exists b', b' <= 1 /\
  sb l b !! i = Some (if x <? 1 + b' then x + 256 - 1 - b' else x - 1 - b').
Proof.
  revert b i. induction l as [|y l IH]; intros b i Hi Hb; [discriminate|].
  destruct i as [|i]; cbn [sb].
  - injection Hi as ->. exists b. split; [assumption|]. destruct (x <? 1 + b); reflexivity.
  - destruct (y <? 1 + b); cbn; eapply IH; try eassumption; lia.
Qed.

Lemma wsub_lsbs l : length l = 8%nat -> byte_list l -> wsub 64 (load_le l) lsbs = load_le (sb l 0).
Proof.
  intros Hlen Hl. pose proof (sb_spec l 0 ltac:(lia) Hl) as Hs. pose proof (load_lt _ Hl) as Hlt.
  pose proof (load_lt _ (sb_bytes l 0 ltac:(lia) Hl)) as Hlt2. rewrite sb_length in Hlt2.
  rewrite Hlen in *. rewrite <- lsbs_load in Hs. change (256 ^ N.of_nat 8) with (2 ^ 64) in *.
  pose proof (bout_le l 0 ltac:(lia)) as Hb.
  assert (Hls : lsbs < 2 ^ 64) by reflexivity.
  unfold wsub. rewrite (N.mod_small lsbs) by assumption.
  set (P := 2 ^ 64) in *. assert (P <> 0) by (unfold P; apply N.pow_nonzero; lia).
  set (A := load_le l) in *. set (B := load_le (sb l 0)) in *. set (L := lsbs) in *.
  assert (Hcase : bout l 0 = 0 \/ bout l 0 = 1) by lia.
  destruct Hcase as [Hc|Hc]; rewrite Hc in Hs; clearbody P A B L.
  - replace (A + P - L) with (B + 1 * P) by lia. rewrite N.mod_add by assumption. apply N.mod_small. assumption.
  - replace (A + P - L) with B by lia. apply N.mod_small. assumption.
Qed.

Lemma wmul_lsbs h : h < 256 -> wmul 64 lsbs h = load_le (replicate 8 h).
Proof.
  intros Hh. unfold wmul. rewrite N.mod_small.
  - unfold lsbs. cbn [replicate load_le]. lia.
  - unfold lsbs. change (2 ^ 64) with 18446744073709551616. lia.
Qed.
Lemma lxor_bytes l h : byte_list l -> h < 256 ->
  N.lxor (load_le l) (load_le (replicate (length l) h)) = load_le (map (fun b => N.lxor b h) l).
Proof.
  intros Hl Hh. apply N.bits_inj. intros b.
  rewrite N.lxor_spec, !load_bit; try assumption.
  - change (map (fun b0 => N.lxor b0 h) l) with ((fun b0 => N.lxor b0 h) <$> l). rewrite list_lookup_fmap.
    destruct (l !! N.to_nat (b / 8)) as [x|] eqn:E.
    + rewrite lookup_replicate_2 by (eapply lookup_lt_Some; eassumption). cbn. rewrite N.lxor_spec. reflexivity.
    + rewrite lookup_ge_None_2 by (rewrite replicate_length; apply lookup_ge_None_1; assumption).
      cbn [fmap option_fmap option_map]. rewrite !def_none, !N.bits_0. reflexivity.
  - apply Forall_forall. intros x Hx. apply elem_of_list_In, in_map_iff in Hx. destruct Hx as (y & <- & Hy).
    apply elem_of_list_In in Hy. unfold byte_list in Hl. rewrite Forall_forall in Hl. specialize (Hl y Hy).
    change 256 with (2 ^ 8) in *. apply lt_pow2_testbit. intros i Hi. rewrite N.lxor_spec.
    rewrite (testbit_high y 8), (testbit_high h 8) by assumption. reflexivity.
  - apply byte_list_replicate. assumption.
Qed.

Lemma byte_list_lxor l h : byte_list l -> h < 256 -> byte_list (map (fun b => N.lxor b h) l).
Proof.
  intros Hl Hh. apply Forall_forall. intros x Hx. apply elem_of_list_In, in_map_iff in Hx. destruct Hx as (y & <- & Hy).
  apply elem_of_list_In in Hy. unfold byte_list in Hl. rewrite Forall_forall in Hl. specialize (Hl y Hy).
  change 256 with (2 ^ 8) in *. apply lt_pow2_testbit. intros i Hi. rewrite N.lxor_spec.
  rewrite (testbit_high y 8), (testbit_high h 8) by assumption. reflexivity.
Qed.

Definition match_bools (xs : list N) : list bool :=
  zip_with (fun r x => N.testbit r 7 && negb (N.testbit x 7)) (sb xs 0) xs.

Lemma p_match_rep l h : length l = 8%nat -> h < 128 ->
  mask_rep 3 7 (p_match_word (p_load l) h) (match_bools (map (fun b => N.lxor b h) (map byte_of l))).
Proof.
  intros Hlen Hh. unfold p_match_word.
  rewrite wmul_lsbs by lia.
  pose proof (lxor_bytes (map byte_of l) h (byte_list_map l) ltac:(lia)) as Hx.
  rewrite map_length, Hlen in Hx. unfold p_load. rewrite Hx. clear Hx.
  set (xs := map (fun b => N.lxor b h) (map byte_of l)).
  assert (Hxs : byte_list xs) by (apply byte_list_lxor; [apply byte_list_map|lia]).
  assert (Hxl : length xs = 8%nat) by (unfold xs; rewrite !map_length; assumption).
  rewrite wsub_lsbs by assumption. apply rep_msbs.
  - unfold match_bools. rewrite zip_with_length, sb_length. lia.
  - intros i Hi. rewrite N.land_spec, wnot_spec_low by lia.
    rewrite !load_bit by (try apply sb_bytes; try assumption; lia).
    replace (N.to_nat ((8 * N.of_nat i + 7) / 8)) with i by lia.
    replace ((8 * N.of_nat i + 7) mod 8) with 7 by lia.
    destruct (lookup_lt_is_Some_2 xs i ltac:(lia)) as [x Ex].
    destruct (sb_lookup xs 0 i x Ex ltac:(lia)) as (b' & _ & Er).
    unfold match_bools. rewrite lookup_zip_with, Er, Ex. reflexivity.
Qed.

Lemma match_bool_char x b' : x < 256 -> b' <= 1 ->
  N.testbit (if x <? 1 + b' then x + 256 - 1 - b' else x - 1 - b') 7 && negb (N.testbit x 7)
  = (x <? 1 + b').
Proof.
  intros Hx Hb. destruct (N.ltb_spec x (1 + b')) as [Hlt|Hge].
  - rewrite (testbit_high x 7); [|change (2 ^ 7) with 128; lia|lia].
    assert (Hin : x = 0 \/ x = 1) by lia. assert (Hb' : b' = 0 \/ b' = 1) by lia.
    destruct Hin as [->| ->], Hb' as [->| ->]; try reflexivity; lia.
  - destruct (N.lt_ge_cases x 128) as [Hs|Hs].
    + rewrite (testbit_high (x - 1 - b') 7); [reflexivity|change (2 ^ 7) with 128; lia|lia].
    + assert (N.testbit x 7 = true) as ->; [|apply andb_false_r].
      rewrite N.testbit_eqb. change (2 ^ 7) with 128.
      assert (x / 128 = 1) as -> by lia. reflexivity.
Qed.

Lemma lxor_byte_zero a h : a < 256 -> h < 128 -> N.lxor a h < 128 -> a < 128.
Proof.
  intros Ha Hh Hx. change 128 with (2 ^ 7) in *. apply lt_pow2_testbit. intros i Hi.
  pose proof (testbit_high _ 7 i Hx Hi) as H. rewrite N.lxor_spec, (testbit_high h 7) in H by assumption.
  rewrite xorb_false_r in H. assumption.
Qed.

Lemma p_match_complete l h i : length l = 8%nat -> Forall valid_ctrl l -> (0 <= h < 128)%Z ->
  l !! i = Some h -> match_bools (map (fun b => N.lxor b (Z.to_N h)) (map byte_of l)) !! i = Some true.
Proof.
  intros Hlen Hv Hh Hi. set (xs := map _ (map byte_of l)).
  assert (Ex : xs !! i = Some 0).
  { unfold xs. change (map (fun b => N.lxor b (Z.to_N h)) (map byte_of l)) with ((fun b => N.lxor b (Z.to_N h)) <$> (byte_of <$> l)).
    rewrite !list_lookup_fmap, Hi. cbn. rewrite byte_of_full by assumption. rewrite N.lxor_nilpotent. reflexivity. }
  destruct (sb_lookup xs 0 i 0 Ex ltac:(lia)) as (b' & Hb' & Er).
  unfold match_bools. rewrite lookup_zip_with, Er, Ex. cbn -[N.ltb N.testbit].
  rewrite match_bool_char by lia. f_equal. lia.
Qed.
Lemma p_match_sound l h i : length l = 8%nat -> Forall valid_ctrl l -> (0 <= h < 128)%Z ->
  match_bools (map (fun b => N.lxor b (Z.to_N h)) (map byte_of l)) !! i = Some true ->
  exists c, l !! i = Some c /\ (0 <= c)%Z.
Proof.
  intros Hlen Hv Hh Hi. set (xs := map _ (map byte_of l)) in *.
  unfold match_bools in Hi. rewrite lookup_zip_with in Hi.
  destruct (sb xs 0 !! i) as [r|] eqn:Er; [|discriminate].
  destruct (xs !! i) as [x|] eqn:Ex; [|discriminate]. cbn -[N.testbit] in Hi. injection Hi as Hi.
  apply andb_prop in Hi. destruct Hi as [_ Hx].
  unfold xs in Ex. change (map (fun b => N.lxor b (Z.to_N h)) (map byte_of l)) with ((fun b => N.lxor b (Z.to_N h)) <$> (byte_of <$> l)) in Ex.
  rewrite !list_lookup_fmap in Ex. destruct (l !! i) as [c|] eqn:Ec; [|discriminate].
  cbn -[N.lxor] in Ex. injection Ex as <-. exists c. split; [reflexivity|].
  pose proof (Forall_lookup' _ _ _ _ Hv Ec) as Hvc.
  rewrite N.lxor_spec in Hx. rewrite (testbit_high (Z.to_N h) 7) in Hx; [|change (2 ^ 7) with 128; lia|lia].
  rewrite byte7 in Hx by assumption. destruct (c <? 0)%Z eqn:E; [discriminate|]. lia.
Qed.

(** ** CountLeadingEmptyOrDeleted and ConvertSpecialToEmptyAndFullToDeleted: the words involved depend
    only on one boolean per byte; the 2^8 resulting words are then computed. *)
Definition lead_word (bs : list bool) : N :=
  load_le (map (fun b : bool => if b then 255 else 254) (take 7 bs)
           ++ map (fun b : bool => if b then 1 else 0) (drop 7 bs)).
Lemma gaps_load : gaps = load_le (replicate 7 254 ++ [0]).
Proof. reflexivity. Qed.
Lemma ones_bit j : j < 8 -> N.testbit 255 j = true.
Proof. intros H. change 255 with (N.ones 8). apply N.ones_spec_low. assumption. Qed.
Lemma b254_bit j : j < 8 -> N.testbit 254 j = negb (j =? 0).
Proof.
  intros H. change 254 with (wnot 8 1). rewrite wnot_spec_low by assumption. reflexivity.
Qed.

Lemma lead_word_spec l : length l = 8%nat -> Forall valid_ctrl l ->
  N.lor (N.land (wnot 64 (p_load l)) (N.shiftr (p_load l) 7)) gaps = lead_word (map (fun c => c <? -1)%Z l).
Proof.
  intros Hlen Hv. apply N.bits_inj. intros b.
  rewrite N.lor_spec, N.land_spec, N.shiftr_spec', gaps_load. unfold lead_word.
  rewrite load_bit.
  2:{ apply Forall_app. split; [apply Forall_replicate; lia|repeat constructor; lia]. }
  rewrite load_bit.
  2:{ apply Forall_app. split; apply Forall_forall; intros x Hx; apply elem_of_list_In, in_map_iff in Hx;
      destruct Hx as ([] & <- & _); lia. }
  set (bl := map (fun c => (c <? -1)%Z) l).
  assert (Hbl : length bl = 8%nat) by (unfold bl; rewrite map_length; assumption).
  destruct (N.lt_ge_cases b 64) as [Hb|Hb].
  2:{ rewrite wnot_spec_high by assumption. cbn [andb orb].
      rewrite !lookup_ge_None_2; [rewrite !def_none, !N.bits_0; reflexivity|..].
      - rewrite app_length, !map_length, take_length, drop_length. lia.
      - cbn. lia. }
  rewrite wnot_spec_low by assumption.
  set (i := N.to_nat (b / 8)). set (j := b mod 8).
  assert (Hi : (i < 8)%nat) by lia. assert (Hj : j < 8) by lia.
  replace b with (8 * N.of_nat i + j) by lia. clearbody i j. clear b Hb.
  destruct (p_load_bit l i j Hlen Hi Hj) as (c & Hc & ->).
  pose proof (Forall_lookup' _ _ _ _ Hv Hc) as Hvc.
  assert (Hbli : bl !! i = Some (c <? -1)%Z).
  { unfold bl. change (map (fun c => (c <? -1)%Z) l) with ((fun c => (c <? -1)%Z) <$> l). rewrite list_lookup_fmap, Hc. reflexivity. }
  destruct (decide (i < 7)%nat) as [Hi7|Hi7].
  - (* low 7 bytes *)
    rewrite lookup_app_l by (rewrite replicate_length; lia). rewrite lookup_replicate_2 by lia.
    rewrite lookup_app_l by (rewrite map_length, take_length; lia).
    change (map (fun b0 : bool => if b0 then 255 else 254) (take 7 bl)) with ((fun b0 : bool => if b0 then 255 else 254) <$> (take 7 bl)).
    rewrite list_lookup_fmap, lookup_take by lia. rewrite Hbli. cbn [fmap option_fmap option_map]; rewrite ?def_some.
    rewrite b254_bit by assumption.
    destruct (N.eqb_spec j 0) as [->|Hj0].
    + replace (8 * N.of_nat i + 0 + 7) with (8 * N.of_nat i + 7) by lia.
      destruct (p_load_bit l i 7 Hlen Hi ltac:(lia)) as (c' & Hc' & ->). assert (c' = c) as -> by congruence.
      cbn [negb]. rewrite orb_false_r, andb_comm, byte_nonfull by assumption.
      destruct (c <? -1)%Z; reflexivity.
    + cbn [negb]. rewrite orb_true_r. destruct (c <? -1)%Z; [rewrite ones_bit by assumption; reflexivity|].
      rewrite b254_bit by assumption. destruct (N.eqb_spec j 0); [lia|reflexivity].
  - assert (i = 7%nat) as -> by lia. assert (E7 : (replicate 7 254 ++ [0]) !! 7%nat = Some 0) by reflexivity.
    rewrite E7, def_some, N.bits_0, orb_false_r.
    rewrite lookup_app_r by (rewrite map_length, take_length; lia).
    rewrite map_length, take_length. replace (7 - 7 `min` length bl)%nat with 0%nat by lia.
    change (map (fun b0 : bool => if b0 then 1 else 0) (drop 7 bl)) with ((fun b0 : bool => if b0 then 1 else 0) <$> (drop 7 bl)).
    rewrite list_lookup_fmap, lookup_drop. change (7 + 0)%nat with 7%nat. rewrite Hbli. cbn [fmap option_fmap option_map]; rewrite ?def_some.
    destruct (N.eqb_spec j 0) as [->|Hj0].
    + replace (8 * N.of_nat 7 + 0 + 7) with (8 * N.of_nat 7 + 7) by lia.
      destruct (p_load_bit l 7 7 Hlen ltac:(lia) ltac:(lia)) as (c' & Hc' & ->). assert (c' = c) as -> by congruence.
      rewrite andb_comm, byte_nonfull by assumption. destruct (c <? -1)%Z; reflexivity.
    + rewrite (p_load_high l (8 * N.of_nat 7 + j + 7)) by (assumption || lia). rewrite andb_false_r.
      destruct (c <? -1)%Z; [|rewrite N.bits_0; reflexivity].
      change 1 with (2 ^ 0). rewrite N.pow2_bits_eqb. lia.
Qed.

Fixpoint lead (bs : list bool) : nat :=
  match bs with true :: r => S (lead r) | _ => O end.
Lemma lead_spec bs : (lead bs <= length bs)%nat /\ (forall j, (j < lead bs)%nat -> bs !! j = Some true) /\
  bs !! lead bs <> Some true.
Proof.
  induction bs as [|[] bs (H1 & H2 & H3)]; cbn [lead length].
  - split; [lia|]. split; [lia|discriminate].
  - split; [lia|]. split; [|assumption]. intros [|j] Hj; [reflexivity|]. apply H2. lia.
  - split; [lia|]. split; [lia|discriminate].
Qed.
Definition lead_calc (bs : list bool) : nat :=
  N.to_nat (N.shiftr (ctz (wadd 64 (lead_word bs) 1) + 7) 3).
Lemma lead_calc_ok bs : length bs = 8%nat -> lead_calc bs = lead bs.
Proof.
  intros H. do 8 (destruct bs as [|? bs]; [discriminate|]). destruct bs; [|discriminate].
  repeat match goal with b : bool |- _ => destruct b end; vm_compute; reflexivity.
Qed.

Definition conv_calc (bs : list bool) : list Z :=
  let x := load_le (map (fun b : bool => if b then 128 else 0) bs) in
  map ctrl_of (store_le 8 (N.land (wadd 64 (wnot 64 x) (N.shiftr x 7)) (wnot 64 lsbs))).
Lemma conv_calc_ok bs : length bs = 8%nat -> conv_calc bs = map (fun b : bool => if b then -128 else -2)%Z bs.
Proof.
  intros H. do 8 (destruct bs as [|? bs]; [discriminate|]). destruct bs; [|discriminate].
  repeat match goal with b : bool |- _ => destruct b end; vm_compute; reflexivity.
Qed.
Lemma conv_word l : length l = 8%nat -> Forall valid_ctrl l ->
  N.land (p_load l) msbs = load_le (map (fun b : bool => if b then 128 else 0) (map (fun c => c <? 0)%Z l)).
Proof.
  intros Hlen Hv. apply N.bits_inj. intros b. rewrite N.land_spec, msbs_bit.
  rewrite load_bit.
  2:{ apply Forall_forall; intros x Hx; apply elem_of_list_In, in_map_iff in Hx; destruct Hx as ([] & <- & _); lia. }
  change (map (fun b : bool => if b then 128 else 0) (map (fun c => c <? 0)%Z l)) with
    ((fun b : bool => if b then 128 else 0) <$> ((fun c => c <? 0)%Z <$> l)).
  rewrite !list_lookup_fmap.
  destruct (N.ltb_spec b 64) as [Hb|Hb].
  - set (i := N.to_nat (b / 8)). set (j := b mod 8).
    assert (Hi : (i < 8)%nat) by lia. assert (Hj : j < 8) by lia.
    replace b with (8 * N.of_nat i + j) by lia. clearbody i j. clear b Hb.
    destruct (p_load_bit l i j Hlen Hi Hj) as (c & Hc & ->). rewrite Hc. cbn [fmap option_fmap option_map andb]; rewrite ?def_some.
    pose proof (Forall_lookup' _ _ _ _ Hv Hc) as Hvc.
    destruct (N.eqb_spec j 7) as [->|Hj7].
    + rewrite byte7 by assumption. rewrite andb_true_r. destruct (c <? 0)%Z; reflexivity.
    + rewrite andb_false_r. destruct (c <? 0)%Z; [|rewrite N.bits_0; reflexivity].
      change 128 with (2 ^ 7). rewrite N.pow2_bits_eqb. lia.
  - rewrite lookup_ge_None_2 by lia. cbn [fmap option_fmap option_map andb]; rewrite def_none, N.bits_0. apply andb_false_r.
Qed.

Lemma H73 : 7 < 2 ^ 3.
Proof. reflexivity. Qed.

Lemma exists_or_not (l : list Z) : (exists i, l !! i = Some (-128)%Z) \/ (forall i, l !! i <> Some (-128)%Z).
Proof.
  destruct (decide (Exists (fun c => c = -128)%Z l)) as [Hex|Hnex].
  - left. apply Exists_exists in Hex. destruct Hex as (c & Hin & ->). apply elem_of_list_lookup in Hin. assumption.
  - right. intros i Hi. apply Hnex, Exists_exists. eexists. split; [eapply elem_of_list_lookup_2; eassumption|reflexivity].
Qed.

Lemma port_match_complete l h i : length l = 8%nat -> Forall valid_ctrl l -> (0 <= h < 128)%Z ->
      l !! i = Some h -> In i (bm_iter 64 3 (p_match_mask l h)).
Proof.
  intros Hlen Hv Hh Hi. unfold p_match_mask.
  apply (rep_iter 3 7 H73 64 _ _ i (p_match_rep l (Z.to_N h) Hlen ltac:(lia))).
  - unfold match_bools. rewrite zip_with_length, sb_length, !map_length. lia.
  - apply p_match_complete; assumption.
Qed.
Lemma port_match_sound l h i : length l = 8%nat -> Forall valid_ctrl l -> (0 <= h < 128)%Z ->
      In i (bm_iter 64 3 (p_match_mask l h)) -> exists c, l !! i = Some c /\ (0 <= c)%Z.
Proof.
  intros Hlen Hv Hh Hi. unfold p_match_mask in Hi.
  apply (rep_iter 3 7 H73 64 _ _ i (p_match_rep l (Z.to_N h) Hlen ltac:(lia))) in Hi.
  - eapply p_match_sound; eassumption.
  - unfold match_bools. rewrite zip_with_length, sb_length, !map_length. lia.
Qed.
Lemma port_any_empty l : length l = 8%nat -> Forall valid_ctrl l ->
  (negb (p_empty_mask l =? 0) = true <-> exists i, l !! i = Some (-128)%Z).
Proof.
  intros Hlen Hv. pose proof (rep_zero 3 7 _ _ (p_empty_rep l Hlen Hv)) as Hz. split.
  - intros Hn. destruct (exists_or_not l) as [?|Hno]; [assumption|]. exfalso.
    assert (p_empty_mask l = 0) as E; [|rewrite E in Hn; discriminate].
    apply Hz. intros i Hi. apply map_lookup_true in Hi. destruct Hi as (c & Hc & He).
    apply (Hno i). rewrite Hc. f_equal. lia.
  - intros (i & Hi). destruct (N.eqb_spec (p_empty_mask l) 0) as [E|]; [|reflexivity].
    exfalso. apply (proj1 Hz E i). apply map_lookup_true. eexists. split; [eassumption|reflexivity].
Qed.

Lemma portable_ok : GroupOK group_portable.
Proof.
  split.
  - left. reflexivity.
  - exact port_match_complete.
  - exact port_match_sound.
  - exact port_any_empty.
  - intros l Hlen Hv Hne. cbn [group_portable g_any_empty g_empty_tz] in *.
    assert (Hnz : p_empty_mask l <> 0) by (intros E; rewrite E in Hne; discriminate).
    destruct (rep_lowest 3 7 H73 _ _ (p_empty_rep l Hlen Hv) Hnz) as [H1 H2]. split.
    + apply map_lookup_true in H1. destruct H1 as (c & Hc & He). rewrite Hc. f_equal. lia.
    + intros j Hj Hl. apply (H2 j Hj). apply map_lookup_true. eexists. split; [eassumption|reflexivity].
  - intros l Hlen Hv Hne. cbn [group_portable g_any_empty g_empty_lz g_width] in *.
    assert (Hnz : p_empty_mask l <> 0) by (intros E; rewrite E in Hne; discriminate).
    destruct (rep_leading 64 8 3 7 _ _ eq_refl ltac:(vm_compute; discriminate) (p_empty_rep l Hlen Hv)
                ltac:(rewrite map_length, Hlen; reflexivity) Hnz) as (H1 & H2 & H3).
    change (N.to_nat 8) with 8%nat in *. split; [assumption|]. split.
    + apply map_lookup_true in H2. destruct H2 as (c & Hc & He). rewrite Hc. f_equal. lia.
    + intros j Hj Hl. apply (H3 j Hj). apply map_lookup_true. eexists. split; [eassumption|reflexivity].
  - intros l i Hlen Hv. cbn [group_portable g_first_nonfull]. unfold mask_opt.
    destruct (N.eqb_spec (p_nonfull_mask l) 0) as [|Hnz]; [discriminate|]. intros [= <-].
    destruct (rep_lowest 3 7 H73 _ _ (p_nonfull_rep l Hlen Hv) Hnz) as [H1 H2]. split.
    + apply map_lookup_true in H1. destruct H1 as (c & Hc & He). exists c. split; [assumption|lia].
    + intros j c Hj Hl. destruct (Z_lt_ge_dec c (-1)) as [Hlt|]; [|lia].
      exfalso. apply (H2 j Hj). apply map_lookup_true. exists c. split; [assumption|lia].
  - intros l Hlen Hv. cbn [group_portable g_first_nonfull]. unfold mask_opt.
    destruct (N.eqb_spec (p_nonfull_mask l) 0) as [Hz|]; [|discriminate].
    intros _ j c Hj. pose proof (proj1 (rep_zero 3 7 _ _ (p_nonfull_rep l Hlen Hv)) Hz j) as Hn.
    destruct (Z_lt_ge_dec c (-1)) as [Hlt|]; [|lia].
    exfalso. apply Hn. apply map_lookup_true. exists c. split; [assumption|lia].
  - intros l Hlen Hv. cbn [group_portable g_count_leading g_width].
    assert (Hc : p_count_leading l = lead (map (fun c => c <? -1)%Z l)).
    { unfold p_count_leading. rewrite lead_word_spec by assumption.
      rewrite <- lead_calc_ok by (rewrite map_length; assumption). reflexivity. }
    rewrite Hc. destruct (lead_spec (map (fun c => c <? -1)%Z l)) as (H1 & H2 & H3).
    rewrite map_length in H1. cbn in Hlen. split; [lia|]. split.
    + intros j c Hj Hl. specialize (H2 j Hj). apply map_lookup_true in H2. destruct H2 as (c' & Hc' & He).
      assert (c = c') by congruence. lia.
    + intros c Hl. destruct (Z_lt_ge_dec c (-1)) as [Hlt|]; [|lia].
      exfalso. apply H3. apply map_lookup_true. exists c. split; [assumption|lia].
  - intros l Hlen Hv. cbn [group_portable g_convert].
    assert (Hc : p_convert l = conv_calc (map (fun c => c <? 0)%Z l)).
    { unfold p_convert, conv_calc. rewrite conv_word by assumption. reflexivity. }
    rewrite Hc, conv_calc_ok by (rewrite map_length; assumption). rewrite map_map. reflexivity.
Qed.
