(** Facts about layouts: offsets are aligned, arrays follow one another, the allocation covers them. *)
From Coq Require Import Arith NArith List Lia ZifyBool ZifyNat.
From Verif Require Import Common.Word Common.WordFacts Swiss.Resize Mem.Layout.
Import ListNotations.
Open Scope N_scope.

Lemma pow2_pos a : 0 < 2 ^ a.
Proof. pose proof (N.pow_nonzero 2 a). lia. Qed.

Lemma pow2_dvd a b : a <= b -> (2 ^ a | 2 ^ b).
Proof. intros H. exists (2 ^ (b - a)). rewrite <- N.pow_add_r. f_equal. lia. Qed.

Lemma Align_spec n a : n + 2 ^ a <= 2 ^ 64 ->
  n <= Align n (2 ^ a) /\ Align n (2 ^ a) < n + 2 ^ a /\ (2 ^ a | Align n (2 ^ a)).
Proof.
  intros Hx. pose proof (pow2_pos a) as Ha. unfold Align.
  assert (E : wsub 64 (wadd 64 n (2 ^ a)) 1 = n + (2 ^ a - 1)).
  { unfold wsub, wadd. rewrite (N.mod_small 1) by (vm_compute; reflexivity).
    destruct (N.eq_dec (n + 2 ^ a) (2 ^ 64)) as [H|Hne].
    - rewrite H, N.mod_same by discriminate. rewrite N.add_0_l, N.mod_small by (vm_compute; reflexivity). lia.
    - rewrite (N.mod_small (n + 2 ^ a)) by lia.
      replace (n + 2 ^ a + 2 ^ 64 - 1) with (n + (2 ^ a - 1) + 1 * 2 ^ 64) by lia.
      rewrite N.mod_add by discriminate. apply N.mod_small. lia. }
  rewrite E, land_wnot by lia.
  replace (2 ^ a - 1) with (N.ones a) at 2 4 6 by (rewrite N.ones_equiv; lia).
  rewrite N.ldiff_ones_r, N.shiftl_mul_pow2, N.shiftr_div_pow2.
  pose proof (N.div_mod (n + (2 ^ a - 1)) (2 ^ a) ltac:(lia)).
  pose proof (N.mod_lt (n + (2 ^ a - 1)) (2 ^ a) ltac:(lia)).
  repeat split; [nia|nia|]. exists ((n + (2 ^ a - 1)) / 2 ^ a). lia.
Qed.

(** ** Bytes needed by the arrays, with room for the padding *)
Definition esz (e : ety * N) : N := ty_size (fst e) * snd e.
Fixpoint room (l : layout) : N :=
  match l with [] => 0 | e :: r => esz e + ty_align (fst e) + room r end.
Definition pre (l : layout) (k : nat) : N := room (firstn k l).

Lemma pre_S l k : (k < length l)%nat -> pre l (S k) = pre l k + esz (ent l k) + ty_align (arr_ty l k).
Proof.
  unfold pre, arr_ty, ent. revert k. induction l as [|e l IH]; intros [|k] H; cbn [length] in H; try lia.
  - cbn [firstn room nth]. replace (room (firstn 0 l)) with 0 by reflexivity. lia.
  - cbn [firstn room nth]. rewrite IH by lia. lia.
Qed.

Lemma pre_le l k : pre l k <= room l.
Proof.
  unfold pre. revert k. induction l as [|e l IH]; intros [|k]; cbn [firstn room]; try lia. specialize (IH k). lia.
Qed.

Lemma pre_room l k : (k < length l)%nat -> pre l k + esz (ent l k) + ty_align (arr_ty l k) <= room l.
Proof. intros H. rewrite <- pre_S by exact H. apply pre_le. Qed.

Lemma room_split l k : pre l k + room (skipn k l) = room l.
Proof.
  unfold pre. revert k. induction l as [|e l IH]; intros [|k]; cbn [firstn skipn room]; try lia. specialize (IH k). lia.
Qed.

Lemma esz_eq l k : ty_size (arr_ty l k) * arr_n l k = esz (ent l k).
Proof. reflexivity. Qed.

(* end of the [k]th array *)
Definition arr_end (l : layout) (k : nat) : N := Offset l k + esz (ent l k).

(* The offset of every array, and how much it exceeds the end of the previous one. *)
Lemma Offset_bound l k : room l <= 2 ^ 64 -> (k < length l)%nat -> Offset l k < pre l k + ty_align (arr_ty l k).
Proof.
  intros Hr. induction k as [|k IH]; intros Hk.
  { cbn [Offset]. pose proof (pow2_pos (ty_log (arr_ty l 0))). unfold ty_align. lia. }
  specialize (IH ltac:(lia)).
  pose proof (pre_room l (S k) Hk) as H2. rewrite (pre_S l k) in * by lia.
  cbn [Offset]. unfold wmul. rewrite esz_eq, (N.mod_small (esz _)) by lia.
  rewrite wadd_small by lia. unfold ty_align in *.
  pose proof (Align_spec (Offset l k + esz (ent l k)) (ty_log (arr_ty l (S k))) ltac:(lia)). lia.
Qed.

Lemma Offset_next l k : room l <= 2 ^ 64 -> (S k < length l)%nat ->
  arr_end l k <= Offset l (S k) /\ Offset l (S k) < arr_end l k + ty_align (arr_ty l (S k)).
Proof.
  intros Hr Hk. pose proof (Offset_bound l k Hr ltac:(lia)) as IH.
  pose proof (pre_room l (S k) Hk) as H2. rewrite (pre_S l k) in * by lia. unfold arr_end.
  cbn [Offset]. unfold wmul. rewrite esz_eq, (N.mod_small (esz _)) by lia.
  rewrite wadd_small by lia. unfold ty_align in *.
  pose proof (Align_spec (Offset l k + esz (ent l k)) (ty_log (arr_ty l (S k))) ltac:(lia)). lia.
Qed.

Lemma Offset_aligned l k : room l <= 2 ^ 64 -> (k < length l)%nat -> (ty_align (arr_ty l k) | Offset l k).
Proof.
  intros Hr. destruct k as [|k]; intros Hk; [apply N.divide_0_r|].
  pose proof (Offset_bound l k Hr ltac:(lia)) as IH.
  pose proof (pre_room l (S k) Hk) as H2. rewrite (pre_S l k) in * by lia.
  cbn [Offset]. unfold wmul. rewrite esz_eq, (N.mod_small (esz _)) by lia.
  rewrite wadd_small by lia. unfold ty_align in *. apply Align_spec. lia.
Qed.

Lemma arr_end_lt l k : room l <= 2 ^ 64 -> (k < length l)%nat -> arr_end l k < room l.
Proof.
  intros Hr Hk. pose proof (Offset_bound l k Hr Hk). pose proof (pre_room l k Hk). unfold arr_end. lia.
Qed.

Lemma arr_end_mono l j k : room l <= 2 ^ 64 -> (j < k)%nat -> (k < length l)%nat -> arr_end l j <= Offset l k.
Proof.
  intros Hr Hjk. induction Hjk as [|k Hjk IH]; intros Hk.
  - apply Offset_next; assumption.
  - specialize (IH ltac:(lia)). pose proof (Offset_next l k Hr Hk) as [H _]. unfold arr_end in *. lia.
Qed.

Lemma AllocSize_end l : room l <= 2 ^ 64 -> l <> [] -> AllocSize l = arr_end l (length l - 1).
Proof.
  intros Hr Hl. assert (Hk : (length l - 1 < length l)%nat) by (destruct l; [congruence|cbn; lia]).
  pose proof (arr_end_lt l _ Hr Hk) as H. unfold AllocSize, arr_end in *. unfold wmul.
  rewrite esz_eq, (N.mod_small (esz _)) by lia. apply wadd_small. lia.
Qed.

Lemma arr_end_alloc l k : room l <= 2 ^ 64 -> (k < length l)%nat -> arr_end l k <= AllocSize l.
Proof.
  intros Hr Hk. rewrite AllocSize_end by (auto; intros ->; cbn in Hk; lia).
  destruct (Nat.eq_dec k (length l - 1)) as [->|]; [lia|].
  pose proof (arr_end_mono l k (length l - 1) Hr ltac:(lia) ltac:(lia)). unfold arr_end in *. lia.
Qed.

(** ** Alignment of the block *)
Lemma Alignment_pow l : exists m, Alignment l = 2 ^ m /\ forall k, (k < length l)%nat -> ty_log (arr_ty l k) <= m.
Proof.
  induction l as [|e l (m & Hm & Hall)].
  { exists 0. split; [reflexivity|intros k Hk; cbn in Hk; lia]. }
  exists (N.max (ty_log (fst e)) m). split.
  - cbn [Alignment fold_right]. fold (Alignment l). rewrite Hm. unfold ty_align.
    destruct (N.le_ge_cases (ty_log (fst e)) m) as [H|H].
    + rewrite (N.max_r _ _ H), N.max_r; [reflexivity|]. apply N.pow_le_mono_r; lia.
    + rewrite (N.max_l _ _ H), N.max_l; [reflexivity|]. apply N.pow_le_mono_r; lia.
  - intros [|k] Hk; unfold arr_ty, ent in *; cbn [nth length] in *; [lia|]. specialize (Hall k ltac:(lia)). lia.
Qed.

Lemma Alignment_dvd l k : (k < length l)%nat -> (ty_align (arr_ty l k) | Alignment l).
Proof. intros Hk. destruct (Alignment_pow l) as (m & -> & H). apply pow2_dvd, H, Hk. Qed.

Lemma Alignment_pos l : 1 <= Alignment l.
Proof. destruct (Alignment_pow l) as (m & -> & _). pose proof (pow2_pos m). lia. Qed.

Lemma Alignment_room l : l <> [] -> Alignment l <= room l.
Proof.
  induction l as [|e [|f l] IH]; intros Hl; [congruence| |].
  - cbn [Alignment fold_right room]. pose proof (pow2_pos (ty_log (fst e))). unfold ty_align. lia.
  - specialize (IH ltac:(congruence)). cbn [Alignment fold_right room] in *. lia.
Qed.

Lemma block_bytes_spec A n : 1 <= A -> n + A <= 2 ^ 64 -> n <= block_bytes A n /\ block_bytes A n < n + A.
Proof.
  intros HA Hn. unfold block_bytes, units.
  assert (E : wsub 64 (wadd 64 n A) 1 = n + (A - 1)).
  { unfold wsub, wadd. rewrite (N.mod_small 1) by (vm_compute; reflexivity).
    destruct (N.eq_dec (n + A) (2 ^ 64)) as [H|Hne].
    - rewrite H, N.mod_same by discriminate. rewrite N.add_0_l, N.mod_small by (vm_compute; reflexivity). lia.
    - rewrite (N.mod_small (n + A)) by lia.
      replace (n + A + 2 ^ 64 - 1) with (n + (A - 1) + 1 * 2 ^ 64) by lia.
      rewrite N.mod_add by discriminate. apply N.mod_small. lia. }
  rewrite E. pose proof (N.div_mod (n + (A - 1)) A ltac:(lia)). pose proof (N.mod_lt (n + (A - 1)) A ltac:(lia)). nia.
Qed.

Lemma elem_addr_eq l base k j : room l <= 2 ^ 64 -> (k < length l)%nat -> j < arr_n l k ->
  base + AllocSize l <= 2 ^ 64 -> 1 <= ty_size (arr_ty l k) ->
  elem_addr l base k j = base + Offset l k + j * ty_size (arr_ty l k) /\
  Offset l k + j * ty_size (arr_ty l k) + ty_size (arr_ty l k) <= arr_end l k.
Proof.
  intros Hr Hk Hj Hb Hs. pose proof (arr_end_alloc l k Hr Hk) as Ha. unfold elem_addr, arr_end in *.
  assert (Hm : j * ty_size (arr_ty l k) + ty_size (arr_ty l k) <= esz (ent l k)).
  { rewrite <- esz_eq. replace (j * ty_size (arr_ty l k) + ty_size (arr_ty l k)) with (ty_size (arr_ty l k) * (j + 1)) by lia.
    apply N.mul_le_mono_l. lia. }
  split; [|lia]. unfold wmul. rewrite N.mod_small by lia. rewrite (wadd_small 64 base) by lia. rewrite wadd_small by lia. reflexivity.
Qed.
