(** C45 (bit tricks) and C46 (hash mixing). *)
From Coq Require Import NArith ZArith List Lia Bool.
From Coq Require Import ZifyBool ZifyNat ZifyN.
From Verif.Common Require Import Res Word WordFacts.
From Verif.Bits Require Import Model Facts.
From Verif.BitVec Require Model Spec Popcount.
Import ListNotations.
Open Scope N_scope.

(** ** Specifications *)
(** c is the number of leading zeros of the w-bit word n. *)
Definition is_clz (w n c : N) : Prop :=
  (n = 0 /\ c = w) \/ (c < w /\ 2 ^ (w - 1 - c) <= n < 2 ^ (w - c)).
(** c is the number of trailing zeros of n: n is an odd multiple of 2^c. *)
Definition is_ctz (n c : N) : Prop := exists q, n = 2 ^ c * (2 * q + 1).
(** The number of ones among the low k bits of n. *)
Fixpoint ones_below (k : nat) (n : N) : N :=
  match k with O => 0 | S k' => ones_below k' n + N.b2n (N.testbit n (N.of_nat k')) end.
(** Byte j of a word (0 is the least significant one). *)
Definition byte (x j : N) : N := (x / 256 ^ j) mod 256.
(** The bytes of a w-byte word, most significant first. *)
Definition msb_first (n : nat) (x : N) : list N := map (fun j => byte x (N.of_nat (n - 1 - j))) (seq 0 n).
(** The bytes of a w-byte word, least significant first. *)
Definition lsb_first (n : nat) (x : N) : list N := map (fun j => byte x (N.of_nat j)) (seq 0 n).

(** ** C45 *)
Lemma is_clz_size w n : n < 2 ^ w -> is_clz w n (w - N.size n).
Proof.
  intros Hn. destruct (N.eq_dec n 0) as [->|Hz].
  - left. split; [reflexivity|]. change (N.size 0) with 0. lia.
  - right. pose proof (size_le _ _ Hn). rewrite N.size_log2 in * by assumption.
    destruct (N.log2_spec n) as [H1 H2]; [lia|].
    replace (w - 1 - (w - N.succ (N.log2 n))) with (N.log2 n) by lia.
    replace (w - (w - N.succ (N.log2 n))) with (N.succ (N.log2 n)) by lia. split; [lia|]. split; assumption.
Qed.
Lemma is_clz_unique w n c c' : is_clz w n c -> is_clz w n c' -> c = c'.
Proof.
  assert (Hp : forall a b, a < b -> 2 ^ a < 2 ^ b) by (intros; apply N.pow_lt_mono_r; lia).
  assert (Hq : forall a b, a <= b -> 2 ^ a <= 2 ^ b) by (intros; apply N.pow_le_mono_r; lia).
  intros [[-> ->]|[H1 [H2 H3]]] [[E ->]|[H4 [H5 H6]]]; try reflexivity.
  - assert (2 ^ (w - 1 - c') <> 0) by (apply N.pow_nonzero; lia). lia.
  - subst n. assert (2 ^ (w - 1 - c) <> 0) by (apply N.pow_nonzero; lia). lia.
  - destruct (N.lt_trichotomy c c') as [L|[L|L]]; [|assumption|].
    + pose proof (Hq (w - c') (w - 1 - c) ltac:(lia)). lia.
    + pose proof (Hq (w - c) (w - 1 - c') ltac:(lia)). lia.
Qed.
Lemma is_ctz_unique n c c' : is_ctz n c -> is_ctz n c' -> c = c'.
Proof.
  intros [q Hq] [q' Hq'].
  assert (A : forall c q, n = 2 ^ c * (2 * q + 1) -> ctz n = c).
  { clear. intros c q ->. apply ctz_unique.
    - rewrite N.mul_comm. replace c with (0 + c) at 2 by lia. rewrite N.mul_pow2_bits_add. apply N.testbit_odd_0.
    - intros j Hj. rewrite N.mul_comm. apply N.mul_pow2_bits_low. assumption. }
  rewrite <- (A c q Hq). apply (A c' q' Hq').
Qed.

(** CountLeadingZeros64 / 32 (portable) never index the table out of range and count leading zeros. *)
Theorem C45_clz64 n : n < 2 ^ 64 -> exists c, clz64_slow n = Ok c /\ is_clz 64 n c.
Proof. intros H. eexists. split; [apply clz64_slow_ok; assumption|]. apply is_clz_size. assumption. Qed.
Print Assumptions C45_clz64.
Theorem C45_clz32 n : n < 2 ^ 32 -> exists c, clz32_slow n = Ok c /\ is_clz 32 n c.
Proof. intros H. eexists. split; [apply clz32_slow_ok; assumption|]. apply is_clz_size. assumption. Qed.
Print Assumptions C45_clz32.
Theorem C45_ctz64 n : n <> 0 -> n < 2 ^ 64 -> is_ctz n (ctz64_slow n).
Proof. intros Hz H. rewrite ctz64_slow_ok by assumption. apply ctz_shape. assumption. Qed.
Print Assumptions C45_ctz64.
Theorem C45_ctz32 n : n <> 0 -> n < 2 ^ 32 -> is_ctz n (ctz32_slow n).
Proof. intros Hz H. rewrite ctz32_slow_ok by assumption. apply ctz_shape. assumption. Qed.
Print Assumptions C45_ctz32.

(** The De Bruijn bit scan of bit_vector. *)
Theorem C45_de_bruijn n : n <> 0 -> n < 2 ^ 64 -> exists c, BitVec.Model.countr_zero n = Ok c /\ is_ctz n c.
Proof.
  intros Hz H. exists (ctz n). split; [apply BitVec.Popcount.countr_zero_ok; assumption|]. apply ctz_shape. assumption.
Qed.
Print Assumptions C45_de_bruijn.

(** The SWAR population count of bit_vector. *)
Lemma ones_below_count k n : ones_below k n = N.of_nat (BitVec.Spec.count_spec (BitVec.Spec.digits k n)).
Proof.
  induction k as [|k IH]; [reflexivity|]. cbn [ones_below]. rewrite IH.
  unfold BitVec.Spec.digits, BitVec.Spec.count_spec. rewrite seq_S, map_app, filter_app, app_length. cbn [map].
  rewrite Nat2N.inj_add. f_equal. cbn [plus List.filter]. destruct (N.testbit n (N.of_nat k)); reflexivity.
Qed.
Theorem C45_popcount n : n < 2 ^ 64 -> BitVec.Model.popcount64 n = ones_below 64 n.
Proof. intros H. rewrite BitVec.Popcount.popcount64_ok by exact H. symmetry. apply ones_below_count. Qed.
Print Assumptions C45_popcount.

Example clz_example : clz64_slow 0x0000F00000000001 = Ok 16 /\ is_clz 64 0x0000F00000000001 16.
Proof. vm_compute. split; [reflexivity|]. right. split; [reflexivity|]. split; [discriminate|reflexivity]. Qed.
Example ctz_example : ctz64_slow 0xF0F0000000000000 = 52 /\ ctz32_slow 0x80000000 = 31.
Proof. vm_compute. split; reflexivity. Qed.

(** The byte swap reverses the bytes of the word, for 2, 4 and 8 bytes. *)
Lemma le_bytes_lsb n x : le_bytes n x = lsb_first n x.
Proof.
  apply (nth_ext _ _ 0 0); [unfold lsb_first; rewrite map_length, seq_length, le_bytes_len; reflexivity|].
  rewrite le_bytes_len. intros j Hj. rewrite le_bytes_nth by assumption. unfold lsb_first.
  rewrite (nth_indep _ 0 ((fun j => byte x (N.of_nat j)) 0%nat)) by (rewrite map_length, seq_length; assumption).
  rewrite (map_nth (fun j => byte x (N.of_nat j))), seq_nth by assumption. reflexivity.
Qed.
Lemma rev_bytes_msb n x : rev (le_bytes n x) = msb_first n x.
Proof.
  apply (nth_ext _ _ 0 0); [unfold msb_first; rewrite rev_length, map_length, seq_length, le_bytes_len; reflexivity|].
  rewrite rev_length, le_bytes_len. intros j Hj. rewrite rev_nth by (rewrite le_bytes_len; assumption).
  rewrite le_bytes_len, le_bytes_nth by lia. unfold msb_first.
  rewrite (nth_indep _ 0 ((fun j => byte x (N.of_nat (n - 1 - j))) 0%nat)) by (rewrite map_length, seq_length; assumption).
  rewrite (map_nth (fun j => byte x (N.of_nat (n - 1 - j)))), seq_nth by assumption. unfold byte. do 3 f_equal. lia.
Qed.
Theorem C45_bswap w x j : (j < wbytes w)%nat ->
  byte (gbswap w x) (N.of_nat j) = byte x (N.of_nat (wbytes w - 1 - j)).
Proof.
  intros Hj. unfold byte. rewrite <- !(le_bytes_nth (wbytes w)) by lia. rewrite gbswap_bytes.
  rewrite rev_nth by (rewrite le_bytes_len; assumption). rewrite le_bytes_len. f_equal. lia.
Qed.
Print Assumptions C45_bswap.
Theorem C45_bswap_involution w x : x < 2 ^ wbits w -> gbswap w x < 2 ^ wbits w /\ gbswap w (gbswap w x) = x.
Proof.
  intros Hx. split; [apply gbswap_lt|]. rewrite wbits_bytes, <- pow256 in Hx.
  apply (le_bytes_inj (wbytes w)); [rewrite pow256, <- wbits_bytes; apply gbswap_lt|assumption|].
  rewrite !gbswap_bytes, rev_involutive. reflexivity.
Qed.
Print Assumptions C45_bswap_involution.
Theorem C45_ntoh_hton h w x : x < 2 ^ wbits w -> gntoh h w (ghton h w x) = x.
Proof. intros. destruct h; cbn [gntoh ghton]; [apply C45_bswap_involution; assumption|reflexivity]. Qed.
Print Assumptions C45_ntoh_hton.

(** big_endian::Store writes the most significant byte first and little_endian::Store the least
    significant one, whatever the byte order of the host; Load undoes Store, Store undoes Load. *)
Lemma value_lt w l : length l = wbytes w -> isbytes l -> le_value l < 2 ^ wbits w.
Proof. intros Hl Hb. pose proof (le_value_lt l Hb). rewrite wbits_bytes, <- pow256, <- Hl. assumption. Qed.
Theorem C45_store h w v : v < 2 ^ wbits w ->
  be_store h w v = msb_first (wbytes w) v /\ le_store h w v = lsb_first (wbytes w) v.
Proof.
  intros Hv. unfold be_store, le_store, be_from_host, le_from_host, unaligned_store.
  rewrite <- rev_bytes_msb, <- le_bytes_lsb. destruct h; rewrite ?gbswap_bytes, ?rev_involutive; split; reflexivity.
Qed.
Print Assumptions C45_store.
Theorem C45_load_store h w v : v < 2 ^ wbits w ->
  be_load h w (be_store h w v) = v /\ le_load h w (le_store h w v) = v.
Proof.
  intros Hv. pose proof Hv as Hv'. rewrite wbits_bytes, <- pow256 in Hv'.
  assert (B : forall x, x < 2 ^ wbits w -> le_value (le_bytes (wbytes w) x) = x).
  { intros x Hx. apply le_value_bytes. rewrite pow256, <- wbits_bytes. assumption. }
  unfold be_load, le_load, be_store, le_store, be_to_host, le_to_host, be_from_host, le_from_host, unaligned_load, unaligned_store.
  destruct h; split; rewrite ?rev_involutive, ?B by (assumption || apply gbswap_lt); try reflexivity;
    apply C45_bswap_involution; assumption.
Qed.
Print Assumptions C45_load_store.
Theorem C45_store_load h w p : length p = wbytes w -> Forall (fun b => b < 256) p ->
  be_store h w (be_load h w p) = p /\ le_store h w (le_load h w p) = p.
Proof.
  intros Hl Hb.
  assert (Hr : length (rev p) = wbytes w) by (rewrite rev_length; assumption).
  assert (Hrb : isbytes (rev p)) by (apply Forall_rev; assumption).
  pose proof (value_lt w _ Hl Hb) as V. pose proof (value_lt w _ Hr Hrb) as VR.
  pose proof (le_bytes_value p Hb) as B. pose proof (le_bytes_value (rev p) Hrb) as BR.
  rewrite Hl in B. rewrite Hr in BR.
  unfold be_load, le_load, be_store, le_store, be_to_host, le_to_host, be_from_host, le_from_host, unaligned_load, unaligned_store.
  destruct h; split.
  - rewrite (proj2 (C45_bswap_involution _ _ V)). assumption.
  - assumption.
  - rewrite BR. apply rev_involutive.
  - rewrite (proj2 (C45_bswap_involution _ _ VR)). rewrite BR. apply rev_involutive.
Qed.
Print Assumptions C45_store_load.
Example store_example : be_store LittleEndian W32 0x0A0B0C0D = [0x0A; 0x0B; 0x0C; 0x0D].
Proof. reflexivity. Qed.

(** The __APPLE__ branch uses the 16-bit swap for 64-bit words and conversely: the byte swap is not
    the byte swap (and not even injective). *)
Theorem C45_apple_bswap_refuted :
  (exists x y, x < 2 ^ 64 /\ y < 2 ^ 64 /\ x <> y /\ apple_gbswap_64 x = apple_gbswap_64 y) /\
  (exists x, x < 2 ^ 64 /\ byte (apple_gbswap_64 x) 7 <> byte x 0) /\
  (exists x, x < 2 ^ 16 /\ byte (apple_gbswap_16 x) 1 <> byte x 0).
Proof.
  split; [exists 0, 0x10000|split; [exists 1|exists 1]]; vm_compute; repeat split; discriminate.
Qed.
Print Assumptions C45_apple_bswap_refuted.

(** ** C46 *)
(** The portable mixer loses no information. *)
Theorem C46_mix_injective x y : x < 2 ^ 64 -> y < 2 ^ 64 -> phmap_mix8 x = phmap_mix8 y -> x = y.
Proof. apply phmap_mix8_inj. Qed.
Print Assumptions C46_mix_injective.
(** The mixer used when a 128-bit product is available (the usual case) does lose information. *)
Theorem C46_umul_mix_collides :
  exists x y, x < 2 ^ 64 /\ y < 2 ^ 64 /\ x <> y /\ phmap_mix8_umul x = phmap_mix8_umul y.
Proof. exists 0x6, 0x470d9d4a6dcf098e. vm_compute. repeat split; discriminate. Qed.
Print Assumptions C46_umul_mix_collides.

(** A std::pair hash determines each component's hash from the other, for both widths of size_t. *)
Theorem C46_pair_injective s a b a' b' :
  a < 2 ^ sbits s -> b < 2 ^ sbits s -> a' < 2 ^ sbits s -> b' < 2 ^ sbits s ->
  hash_pair s a b = hash_pair s a' b' -> (a = a' <-> b = b').
Proof.
  intros Ha Hb Ha' Hb' H. unfold hash_pair in H. cbn [combine] in H. split; intros <-.
  - apply combiner_inj_k in H; assumption.
  - apply combiner_inj_h in H; assumption.
Qed.
Print Assumptions C46_pair_injective.
(** A std::tuple hash is injective in each component for fixed others. *)
Theorem C46_tuple_injective s l1 l2 x y :
  x < 2 ^ sbits s -> y < 2 ^ sbits s ->
  hash_tuple s (l1 ++ x :: l2) = hash_tuple s (l1 ++ y :: l2) -> x = y.
Proof.
  intros Hx Hy H. unfold hash_tuple in H. rewrite !combine_app in H. cbn [combine] in H.
  apply combine_inj in H; [|apply combiner_lt|apply combiner_lt].
  apply combiner_inj_k in H; [assumption| |assumption|assumption].
  apply combine_lt. destruct s; reflexivity.
Qed.
Print Assumptions C46_tuple_injective.

(** Integers of at most 64 bits, signed or unsigned, hash injectively with a 64-bit size_t. *)
Theorem C46_int_injective (lo : Z) x y :
  (lo = 0 \/ lo = - 2 ^ 63)%Z -> (lo <= x < lo + 2 ^ 64)%Z -> (lo <= y < lo + 2 ^ 64)%Z ->
  (hash_int S8 x = hash_int S8 y \/ hash_int64 S8 x = hash_int64 S8 y) -> x = y.
Proof.
  intros Hlo Hx Hy H.
  assert (E : Z.to_N (x mod 2 ^ 64) = Z.to_N (y mod 2 ^ 64)) by (destruct H as [H|H]; exact H). clear H.
  apply (f_equal Z.of_N) in E. rewrite !Z2N.id in E by (apply Z.mod_pos_bound; reflexivity).
  change (2 ^ 64)%Z with 18446744073709551616%Z in *. change (2 ^ 63)%Z with 9223372036854775808%Z in *.
  pose proof (Z.div_mod x 18446744073709551616 ltac:(lia)). pose proof (Z.div_mod y 18446744073709551616 ltac:(lia)).
  pose proof (Z.mod_pos_bound x 18446744073709551616 ltac:(lia)). pose proof (Z.mod_pos_bound y 18446744073709551616 ltac:(lia)).
  lia.
Qed.
Print Assumptions C46_int_injective.

(** IEEE equality implies equal hashes; equality is the comparison of the represented values:
    a NaN equals nothing, the two zeros are equal, other values have one representation. *)
Theorem C46_double_equal s a b : feq 11 52 a b = true -> hash_double s a = hash_double s b.
Proof.
  unfold feq, hash_double, feq. intros H.
  destruct (fnan 11 52 a) eqn:Na; [discriminate|]. destruct (fnan 11 52 b) eqn:Nb; [discriminate|].
  cbn [orb] in *. change (fnan 11 52 0) with false. change (fzero 11 52 0) with true. cbn [orb]. rewrite !andb_true_r.
  destruct (fzero 11 52 a && fzero 11 52 b) eqn:Z.
  - apply andb_true_iff in Z. destruct Z as [-> ->]. reflexivity.
  - apply N.eqb_eq in H. subst. reflexivity.
Qed.
Print Assumptions C46_double_equal.
Theorem C46_float_equal a b : feq 8 23 a b = true -> hash_float a = hash_float b.
Proof.
  unfold feq, hash_float, feq. intros H.
  destruct (fnan 8 23 a) eqn:Na; [discriminate|]. destruct (fnan 8 23 b) eqn:Nb; [discriminate|].
  cbn [orb] in *. change (fnan 8 23 0) with false. change (fzero 8 23 0) with true. cbn [orb]. rewrite !andb_true_r.
  destruct (fzero 8 23 a && fzero 8 23 b) eqn:Z.
  - apply andb_true_iff in Z. destruct Z as [-> ->]. reflexivity.
  - apply N.eqb_eq in H. subst. reflexivity.
Qed.
Print Assumptions C46_float_equal.
(** Different non-NaN doubles hash differently when size_t has 64 bits. *)
Theorem C46_double_injective a b : a < 2 ^ 64 -> b < 2 ^ 64 -> fnan 11 52 a = false -> fnan 11 52 b = false ->
  hash_double S8 a = hash_double S8 b -> feq 11 52 a b = true.
Proof.
  intros Ha Hb Na Nb. unfold hash_double, feq. rewrite Na, Nb.
  change (fnan 11 52 0) with false. change (fzero 11 52 0) with true. cbn [orb fold_if_needed].
  rewrite !andb_true_r. intros H.
  destruct (fzero 11 52 a) eqn:Za, (fzero 11 52 b) eqn:Zb; cbn [andb] in *; [reflexivity| | |].
  - destruct (b =? 0) eqn:E; [|subst b; discriminate]. apply N.eqb_eq in E. subst. discriminate.
  - destruct (a =? 0) eqn:E; [|subst a; discriminate]. apply N.eqb_eq in E. subst. discriminate.
  - destruct (a =? 0) eqn:E; [apply N.eqb_eq in E; subst; discriminate|].
    destruct (b =? 0) eqn:E'; [apply N.eqb_eq in E'; subst; discriminate|]. subst. apply N.eqb_refl.
Qed.
Print Assumptions C46_double_injective.
Example zeros_example : feq 11 52 0 0x8000000000000000 = true /\ hash_double S8 0 = hash_double S8 0x8000000000000000
  /\ feq 11 52 0x7FF8000000000000 0x7FF8000000000000 = false.
Proof. vm_compute. repeat split. Qed.
Example tuple_example : hash_tuple S8 ([1; 2] ++ 3 :: [4]) <> hash_tuple S8 ([1; 2] ++ 5 :: [4]).
Proof. vm_compute. discriminate. Qed.
