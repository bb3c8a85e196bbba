(** Property theorems C54 and C55: the memory blocks of the containers. *)
From Coq Require Import Arith NArith List Lia ZifyBool ZifyNat.
From Verif Require Import Common.Word Common.WordFacts Common.Res Mem.Layout Mem.LayoutFacts.
From Verif.Swiss Require Import Group GroupSpec Model Inv TableInv Resize Ops History Reserve Multi MultiProof MultiHistory PropsTable PropsMulti.
Import ListNotations.
Open Scope N_scope.

(** ** Specification *)
(** Every C++ type has a positive size that is a multiple of its alignment. *)
Definition cpp_type (t : ety) : Prop := 1 <= ty_size t /\ (ty_align t | ty_size t).
(** [s] bytes at [a] lie inside the block of [n] bytes at [base] *)
Definition inside (a s base n : N) : Prop := base <= a /\ a + s <= base + n.
(** two ranges of bytes have no byte in common *)
Definition apart (a s b r : N) : Prop := forall x, ~ (a <= x < a + s /\ b <= x < b + r).
(** the bytes of all arrays plus one alignment for each stay below 2^64 *)
Fixpoint bytes (l : layout) : N := match l with [] => 0 | e :: r => ty_size (fst e) * snd e + ty_align (fst e) + bytes r end.

Lemma bytes_room l : bytes l = room l.
Proof. induction l as [|e l IH]; cbn; [reflexivity|]. rewrite IH. reflexivity. Qed.

(** C54.  In a block obtained from Allocate for a layout, whatever the number of arrays, the element types and
    the number of elements: every element of every array lies inside the block, at an address suitable for its
    type, and shares no byte with any other element. *)
Theorem C54_layout : forall (l : layout) (base : N),
  Forall (fun e => cpp_type (fst e)) l -> bytes l + Alignment l <= 2 ^ 64 -> l <> [] ->
  (Alignment l | base) -> base + block_bytes (Alignment l) (AllocSize l) <= 2 ^ 64 ->
  (forall k j, (k < length l)%nat -> j < arr_n l k ->
     inside (elem_addr l base k j) (ty_size (arr_ty l k)) base (block_bytes (Alignment l) (AllocSize l)) /\
     (ty_align (arr_ty l k) | elem_addr l base k j)) /\
  (forall k j k' j', (k < length l)%nat -> j < arr_n l k -> (k' < length l)%nat -> j' < arr_n l k' ->
     (k, j) <> (k', j') ->
     apart (elem_addr l base k j) (ty_size (arr_ty l k)) (elem_addr l base k' j') (ty_size (arr_ty l k'))).
Proof.
  intros l base HF Hr Hl Hb Hblk. rewrite bytes_room in Hr.
  assert (Hr' : room l <= 2 ^ 64) by lia.
  pose proof (Alignment_pos l) as HA.
  assert (HAS : AllocSize l < room l).
  { rewrite AllocSize_end by assumption. apply arr_end_lt; [assumption|]. destruct l; [congruence|cbn [length]; lia]. }
  pose proof (block_bytes_spec (Alignment l) (AllocSize l) HA ltac:(lia)) as [HB1 HB2].
  assert (Hty : forall k, (k < length l)%nat -> cpp_type (arr_ty l k)).
  { intros k Hk. unfold arr_ty, ent. rewrite Forall_forall in HF. apply HF. apply nth_In. assumption. }
  split.
  - intros k j Hk Hj. destruct (Hty k Hk) as [Hs Hd].
    destruct (elem_addr_eq l base k j Hr' Hk Hj ltac:(lia) Hs) as [E Hle]. rewrite E.
    pose proof (arr_end_alloc l k Hr' Hk). split; [unfold inside; lia|].
    apply N.divide_add_r; [apply N.divide_add_r|].
    + eapply N.divide_trans; [apply Alignment_dvd; exact Hk|assumption].
    + apply Offset_aligned; assumption.
    + apply N.divide_mul_r. assumption.
  - assert (W : forall k j k' j', (k < length l)%nat -> j < arr_n l k -> (k' < length l)%nat -> j' < arr_n l k' ->
      (k < k')%nat \/ (k = k' /\ j < j') ->
      elem_addr l base k j + ty_size (arr_ty l k) <= elem_addr l base k' j').
    { intros k j k' j' Hk Hj Hk' Hj' Hlt. destruct (Hty k Hk) as [Hs Hd]. destruct (Hty k' Hk') as [Hs' Hd'].
      destruct (elem_addr_eq l base k j Hr' Hk Hj ltac:(lia) Hs) as [E Hle].
      destruct (elem_addr_eq l base k' j' Hr' Hk' Hj' ltac:(lia) Hs') as [E' Hle'].
      rewrite E, E'. destruct Hlt as [Hlt|[<- Hlt]].
      - pose proof (arr_end_mono l k k' Hr' Hlt Hk'). lia.
      - assert (j * ty_size (arr_ty l k) + ty_size (arr_ty l k) <= j' * ty_size (arr_ty l k)); [|lia].
        replace (j * ty_size (arr_ty l k) + ty_size (arr_ty l k)) with ((j + 1) * ty_size (arr_ty l k)) by lia.
        apply N.mul_le_mono_r. lia. }
    intros k j k' j' Hk Hj Hk' Hj' Hne x [Hx Hy].
    destruct (Nat.lt_trichotomy k k') as [H|[<-|H]].
    + specialize (W k j k' j' Hk Hj Hk' Hj' ltac:(auto)). lia.
    + destruct (N.lt_trichotomy j j') as [H|[<-|H]]; [|congruence|].
      * specialize (W k j k j' Hk Hj Hk' Hj' ltac:(auto)). lia.
      * specialize (W k j' k j Hk' Hj' Hk Hj ltac:(auto)). lia.
    + specialize (W k' j' k j Hk' Hj' Hk Hj ltac:(auto)). lia.
Qed.
Print Assumptions C54_layout.

(** C54, economy: the block holds no more than the elements plus, before each array, less than one alignment of
    padding; and the allocator is asked for less than one alignment more than that. *)
Theorem C54_no_waste : forall (l : layout),
  bytes l + Alignment l <= 2 ^ 64 -> l <> [] ->
  (forall k, (S k < length l)%nat ->
     Offset l (S k) < Offset l k + ty_size (arr_ty l k) * arr_n l k + ty_align (arr_ty l (S k))) /\
  AllocSize l = Offset l (length l - 1) + ty_size (arr_ty l (length l - 1)) * arr_n l (length l - 1) /\
  block_bytes (Alignment l) (AllocSize l) < AllocSize l + Alignment l.
Proof.
  intros l Hr Hl. rewrite bytes_room in Hr. assert (Hr' : room l <= 2 ^ 64) by lia.
  assert (HAS : AllocSize l < room l).
  { rewrite AllocSize_end by assumption. apply arr_end_lt; [assumption|]. destruct l; [congruence|cbn [length]; lia]. }
  split; [|split].
  - intros k Hk. pose proof (Offset_next l k Hr' Hk) as [_ H]. exact H.
  - rewrite AllocSize_end by assumption. reflexivity.
  - apply block_bytes_spec; [apply Alignment_pos|lia].
Qed.
Print Assumptions C54_no_waste.

(* the example of the documentation of Layout (gtl_base.hpp:421): int[3], 4 bytes of padding, double[4] *)
Definition ex_layout : layout := [(mkEty 4 2, 3); (mkEty 8 3, 4); (mkEty 1 0, 5)].
Example C54_layout_case :
  Forall (fun e => cpp_type (fst e)) ex_layout /\ bytes ex_layout + Alignment ex_layout <= 2 ^ 64 /\ ex_layout <> [] /\
  (Alignment ex_layout | 4096) /\ 4096 + block_bytes (Alignment ex_layout) (AllocSize ex_layout) <= 2 ^ 64 /\
  map (Offset ex_layout) [0; 1; 2]%nat = [0; 16; 48] /\ AllocSize ex_layout = 53 /\
  block_bytes (Alignment ex_layout) (AllocSize ex_layout) = 56 /\ elem_addr ex_layout 4096 1 2 = 4096 + 32.
Proof.
  split. { repeat constructor; cbn; try lia; try (exists 1; reflexivity). }
  repeat split; try (vm_compute; congruence); try discriminate. exists 512. reflexivity.
Qed.

(** ** Hash tables *)
Definition slot_ty (E : env) : ety := mkEty (e_slot_size E) (e_align_log E).
Definition table_layout (E : env) (cap : nat) : layout :=
  MakeLayout (N.of_nat (g_width (e_group E))) (slot_ty E) (N.of_nat cap).

Lemma MakeLayout_alloc E cap : no_wrap E (N.of_nat cap) ->
  AllocSize (table_layout E cap) = alloc_size E (N.of_nat cap).
Proof.
  intros H. unfold no_wrap in H. unfold AllocSize, alloc_size, table_layout, MakeLayout. cbn [length Nat.sub].
  unfold arr_ty, arr_n, ent. cbn [nth fst snd Offset ty_size slot_ty].
  f_equal; [|unfold wmul; f_equal; lia].
  unfold arr_ty, arr_n, ent. cbn [nth fst snd ty_size].
  rewrite (wadd_small 64 (N.of_nat cap)) by lia. rewrite (wadd_small 64 (_ + _) 1) by lia.
  unfold wmul. rewrite N.mod_small by lia. rewrite wadd_small by lia.
  unfold wmod. rewrite (N.mod_small (_ + _ + 1)) by lia.
  unfold Align, align_up, ty_align. cbn [ty_log slot_ty].
  pose proof (pow2_pos (e_align_log E)).
  set (x := N.of_nat cap + N.of_nat (g_width (e_group E)) + 1) in *.
  replace (0 + 1 * x) with x by lia. f_equal.
  rewrite (wadd_small 64 x (2 ^ _)) by lia. rewrite wsub_small by lia. rewrite wadd_small by lia. lia.
Qed.

(** C54, hash tables: in every table a program can build, with capacity [cap], the block the table allocated
    holds all the control bytes (cap + group width + 1) and all the slots, each slot is suitably aligned, and
    no control byte or slot shares a byte with another.  The size of the block is the one the model of the
    table hands to the allocator, and the one computed again when the block is given back. *)
Theorem C54_hash_table : forall (K V : Type) (hash : K -> N) (eqb : K -> K -> bool) (eeq : K * V -> K * V -> bool) (E : env)
    (t : table K V) (base : N),
  real_env E -> KeyOK hash eqb -> EltOK eqb eeq -> mreachable hash eqb eeq E t -> t_cap t <> 0%nat ->
  cpp_type (slot_ty E) ->
  let l := table_layout E (t_cap t) in
  (Alignment l | base) -> base + block_bytes (Alignment l) (AllocSize l) <= 2 ^ 64 ->
  AllocSize l = alloc_size E (N.of_nat (t_cap t)) /\
  arr_n l 0 = N.of_nat (length (t_ctrl t)) /\ arr_n l 1 = N.of_nat (length (t_slots t)) /\
  (forall k j, (k < 2)%nat -> j < arr_n l k ->
     inside (elem_addr l base k j) (ty_size (arr_ty l k)) base (block_bytes (Alignment l) (AllocSize l)) /\
     (ty_align (arr_ty l k) | elem_addr l base k j)) /\
  (forall k j k' j', (k < 2)%nat -> j < arr_n l k -> (k' < 2)%nat -> j' < arr_n l k' -> (k, j) <> (k', j') ->
     apart (elem_addr l base k j) (ty_size (arr_ty l k)) (elem_addr l base k' j') (ty_size (arr_ty l k'))).
Proof.
  intros K V hash eqb eeq E t base HE0 HK HQ Hr Hc Hs l Hb Hblk. pose proof (real_env_ok E HE0) as HE.
  destruct (mreachable_good hash eqb eeq E HE HK HQ t Hr) as [->|Ht]; [cbn in Hc; congruence|].
  pose proof (fits_no_wrap hash eqb E HE t (N.of_nat (t_cap t)) Ht ltac:(lia)) as Hnw.
  pose proof (tv_bytes _ _ _ _ Ht) as Hby. pose proof (eo_max _ HE) as Hmx. pose proof (eo_align _ HE) as Hal.
  assert (Ha : 2 ^ e_align_log E <= 2 ^ 61) by (apply N.pow_le_mono_r; lia).
  pose proof (pow2_pos (e_align_log E)) as Hap.
  unfold needed_bytes in Hby.
  assert (Hn0 : arr_n l 0 = N.of_nat (t_cap t) + N.of_nat (g_width (e_group E)) + 1).
  { unfold l, table_layout, MakeLayout, arr_n, ent. cbn [nth snd].
    rewrite (wadd_small 64 (N.of_nat (t_cap t))) by (unfold no_wrap in Hnw; lia).
    rewrite wadd_small by (unfold no_wrap in Hnw; lia). reflexivity. }
  assert (HA : Alignment l = 2 ^ e_align_log E).
  { unfold l, table_layout, MakeLayout, Alignment. cbn [fold_right fst]. unfold ty_align. cbn [ty_log slot_ty].
    change (2 ^ 0) with 1. lia. }
  assert (Hbytes : bytes l + Alignment l <= 2 ^ 64).
  { rewrite HA. unfold l at 1. unfold table_layout, MakeLayout in *. cbn [bytes fst snd]. unfold arr_n, ent in Hn0. cbn [nth snd l] in Hn0.
    unfold l in Hn0. cbn [nth snd] in Hn0. rewrite Hn0. unfold ty_align. cbn [ty_log ty_size slot_ty]. change (2 ^ 0) with 1. lia. }
  pose proof (tv_0 _ _ _ _ Ht) as Ht0.
  split; [apply MakeLayout_alloc; exact Hnw|].
  split. { rewrite Hn0, (wfc_len _ _ _ (ti_wfc _ _ _ _ Ht0)). lia. }
  split. { rewrite (ti_slen _ _ _ _ Ht0). reflexivity. }
  destruct (C54_layout l base) as [H1 H2]; auto.
  - repeat constructor; cbn; try lia; try apply Hs. exists 1. reflexivity.
Qed.
Print Assumptions C54_hash_table.

(* the tables of C10_example: capacity 63, 63 + 16 + 1 control bytes, 63 slots of 8 bytes *)
Example C54_hash_table_case : exists t, mreachable ex_hash N.eqb ex_eeq ex_env t /\ t_cap t = 63%nat /\
  cpp_type (slot_ty ex_env) /\
  let l := table_layout ex_env (t_cap t) in
  AllocSize l = 80 + 63 * 8 /\ (Alignment l | 4096) /\ 4096 + block_bytes (Alignment l) (AllocSize l) <= 2 ^ 64.
Proof.
  destruct C10_example as (t & _ & Ht & _ & Hc & _). exists t. split; [exact Ht|]. split; [exact Hc|].
  split; [split; [vm_compute; congruence|exists 1; reflexivity]|]. rewrite Hc. cbv zeta.
  split; [vm_compute; reflexivity|]. split; [exists 512; vm_compute; reflexivity|vm_compute; congruence].
Qed.

(** ** Nodes of B-trees *)
Lemma Align_mono x y a : x <= y -> y + 2 ^ a <= 2 ^ 64 -> Align x (2 ^ a) <= Align y (2 ^ a).
Proof.
  intros H Hy. destruct (Align_spec x a ltac:(lia)) as (H1 & H2 & u & H3).
  destruct (Align_spec y a Hy) as (H4 & H5 & v & H6).
  destruct (N.le_gt_cases (Align x (2 ^ a)) (Align y (2 ^ a))) as [|Hgt]; [assumption|]. exfalso.
  rewrite H3, H6 in Hgt. pose proof (pow2_pos a). assert (v + 1 <= u) by nia.
  assert (v * 2 ^ a + 2 ^ a <= u * 2 ^ a) by nia. lia.
Qed.

(** Element types and target sizes for which the sizes of nodes stay far below 2^64. *)
Definition node_ok (slot : ety) (T : N) : Prop :=
  cpp_type slot /\ ty_size slot < 2 ^ 30 /\ T < 2 ^ 16.

Section Node.
Context (slot : ety) (T : N) (Hok : node_ok slot T).
Notation fs := (ty_size (field_ty slot T)).

Lemma field_cases : field_ty slot T = mkEty 1 0 \/ field_ty slot T = mkEty 2 1.
Proof using. unfold field_ty. destruct (_ <? _); auto. Qed.

Lemma field_cpp : cpp_type (field_ty slot T).
Proof using. destruct field_cases as [-> | ->]; split; cbn; try lia; exists 1; reflexivity. Qed.

Lemma align_le : ty_align slot <= ty_size slot.
Proof using Hok.
  destruct Hok as ((H1 & c & H2) & _). rewrite H2. pose proof (pow2_pos (ty_log slot)). unfold ty_align in *.
  destruct (N.eq_dec c 0) as [->|]; [lia|nia].
Qed.

Lemma node_bytes n m : n < 2 ^ 32 -> m < 2 ^ 32 ->
  bytes (node_layout slot T n m) + Alignment (node_layout slot T n m) <= 2 ^ 64.
Proof using Hok.
  intros Hn Hm. pose proof align_le. destruct Hok as (_ & Hs & _).
  assert (ty_size slot * n <= 2 ^ 30 * 2 ^ 32) by (apply N.mul_le_mono; lia). change (2 ^ 30 * 2 ^ 32) with (2 ^ 62) in *.
  unfold node_layout. cbn [bytes Alignment fold_right fst snd].
  unfold ptr_ty. cbn [ty_size]. unfold ty_align in *. cbn [ty_log]. change (2 ^ 3) with 8.
  destruct field_cases as [-> | ->]; cbn [ty_size ty_log]; [change (2 ^ 0) with 1|change (2 ^ 1) with 2]; lia.
Qed.

Lemma node_room n m : n < 2 ^ 32 -> m < 2 ^ 32 -> room (node_layout slot T n m) <= 2 ^ 64.
Proof using Hok. intros Hn Hm. rewrite <- bytes_room. pose proof (node_bytes n m Hn Hm). lia. Qed.

Lemma Offset_indep n m n' m' k : (k <= 2)%nat -> Offset (node_layout slot T n m) k = Offset (node_layout slot T n' m') k.
Proof using. intros H. destruct k as [|[|[|k]]]; try reflexivity. lia. Qed.

Definition off2 : N := Offset (node_layout slot T 0 0) 2.

Lemma off2_bounds : 8 + 4 * fs <= off2 /\ off2 < 2 ^ 31.
Proof using Hok.
  pose proof (Offset_next (node_layout slot T 0 0) 1 (node_room 0 0 eq_refl eq_refl) ltac:(cbn; lia)) as [H1 H2].
  fold off2 in H1, H2. pose proof align_le. destruct Hok as (_ & Hs & _).
  pose proof (Offset_next (node_layout slot T 0 0) 0 (node_room 0 0 eq_refl eq_refl) ltac:(cbn; lia)) as [H3 H4].
  unfold arr_end, esz, arr_ty, ent in *. cbn [nth fst snd node_layout Offset ty_size ptr_ty] in *.
  destruct field_cases as [Hf | Hf]; rewrite Hf in *; unfold ty_align in *; cbn [ty_size ty_log] in *;
    [change (2 ^ 0) with 1 in *|change (2 ^ 1) with 2 in *]; lia.
Qed.

Lemma size_eq n : n < 2 ^ 32 ->
  SizeWithNValues slot T n = Align (off2 + ty_size slot * n) 8 /\ off2 + ty_size slot * n + 8 <= 2 ^ 64.
Proof using Hok.
  intros Hn. pose proof off2_bounds as [_ Hb]. pose proof (node_room n 0 Hn eq_refl) as Hr.
  destruct Hok as (_ & Hs & _).
  assert (ty_size slot * n <= 2 ^ 30 * 2 ^ 32) by (apply N.mul_le_mono; lia). change (2 ^ 30 * 2 ^ 32) with (2 ^ 62) in *.
  split; [|lia]. unfold SizeWithNValues. rewrite AllocSize_end by (auto; discriminate).
  unfold arr_end, esz, ent. cbn [length node_layout Nat.sub nth fst snd]. rewrite N.mul_0_r, N.add_0_r.
  change (Align (wadd 64 off2 (wmul 64 (ty_size slot) n)) 8 = Align (off2 + ty_size slot * n) 8).
  unfold wmul. rewrite N.mod_small by lia. rewrite wadd_small by lia. reflexivity.
Qed.

Lemma size_mono n n' : n <= n' -> n' < 2 ^ 32 -> SizeWithNValues slot T n <= SizeWithNValues slot T n'.
Proof using Hok.
  intros H Hn'. destruct (size_eq n ltac:(lia)) as [-> _]. destruct (size_eq n' Hn') as [-> Hb].
  apply (Align_mono _ _ 3); [|exact Hb]. apply N.add_le_mono_l, N.mul_le_mono_l, H.
Qed.

Lemma size_ge n : n < 2 ^ 32 -> 8 + 4 * fs + ty_size slot * n <= SizeWithNValues slot T n.
Proof using Hok.
  intros Hn. destruct (size_eq n Hn) as [-> Hb]. pose proof off2_bounds as [H _].
  pose proof (Align_spec _ 3 Hb). change (2 ^ 3) with 8 in *. lia.
Qed.

(* the search for the largest number of values that fits the target size *)
Lemma NodeTargetValues_ok fuel b e : b <= e -> e < 2 ^ 31 -> (N.to_nat (e - b) <= fuel)%nat ->
  exists r, NodeTargetValues slot T fuel b e = Some r /\ b <= r <= e /\
    (r = b \/ SizeWithNValues slot T r <= T) /\ (forall n, r < n <= e -> T < SizeWithNValues slot T n).
Proof using Hok.
  revert b e. induction fuel as [|f IH]; intros b e Hbe He Hf.
  - assert (b = e) by lia. subst. cbn [NodeTargetValues]. rewrite N.eqb_refl.
    exists e. repeat split; try lia; auto.
  - cbn [NodeTargetValues]. destruct (N.eqb_spec b e) as [->|Hne].
    { exists e. repeat split; try lia; auto. }
    assert (Hm1 : b <= (b + e) / 2) by (apply N.div_le_lower_bound; lia).
    assert (Hm2 : (b + e) / 2 < e) by (apply N.div_lt_upper_bound; lia).
    set (mid := (b + e) / 2) in *. clearbody mid.
    destruct (N.ltb_spec T (SizeWithNValues slot T (mid + 1))) as [Hgt|Hle].
    + destruct (IH b mid Hm1 ltac:(lia) ltac:(lia)) as (r & -> & Hr & Hfit & Hmax).
      exists r. split; [reflexivity|]. split; [lia|]. split; [assumption|].
      intros n Hn. destruct (N.le_gt_cases n mid) as [|Hnm]; [apply Hmax; lia|].
      eapply N.lt_le_trans; [exact Hgt|]. apply size_mono; lia.
    + destruct (IH (mid + 1) e ltac:(lia) He ltac:(lia)) as (r & -> & Hr & Hfit & Hmax).
      exists r. split; [reflexivity|]. split; [lia|]. split; [|assumption].
      destruct Hfit as [->|]; auto.
Qed.

Lemma kNodeValues_spec : exists kN, kNodeValues slot T = Some kN /\ 3 <= kN /\ kN < 2 ^ 16 /\
  (3 < kN -> SizeWithNValues slot T kN <= T) /\
  (forall n, kN < n -> n < 2 ^ 32 -> T < SizeWithNValues slot T n) /\
  kN < 2 ^ (8 * fs).
Proof using Hok.
  pose proof Hok as (Hc & Hs & HT).
  destruct (NodeTargetValues_ok (N.to_nat T) 0 T ltac:(lia) ltac:(lia) ltac:(lia)) as (r & Hr & Hle & Hfit & Hmax).
  unfold kNodeValues, kNodeTargetValues. rewrite Hr. cbn [option_map]. eexists. split; [reflexivity|].
  assert (Hbig : forall n, r < n -> n < 2 ^ 32 -> T < SizeWithNValues slot T n).
  { intros n Hn Hn32. destruct (N.le_gt_cases n T) as [H|H]; [apply Hmax; lia|].
    pose proof (size_ge n Hn32). destruct Hc as [Hc _]. nia. }
  assert (H3f : 3 < 2 ^ (8 * fs)).
  { destruct field_cases as [-> | ->]; vm_compute; reflexivity. }
  destruct (N.leb_spec 3 r) as [H3|H3].
  - split; [lia|]. split; [lia|]. split; [intros _; destruct Hfit; [lia|assumption]|]. split; [exact Hbig|].
    destruct Hfit as [->|Hfit]; [lia|].
    unfold field_ty. destruct (N.ltb_spec 255 (kNodeSlotSpace T / ty_size slot)) as [H|H]; cbn [ty_size].
    { change (2 ^ (8 * 2)) with (2 ^ 16). lia. }
    change (2 ^ (8 * 1)) with 256.
    pose proof (size_ge r ltac:(lia)) as Hge.
    assert (Hfs : fs = 1). { unfold field_ty. destruct (N.ltb_spec 255 (kNodeSlotSpace T / ty_size slot)); [lia|reflexivity]. }
    rewrite Hfs in Hge. unfold kNodeSlotSpace in H. rewrite wsub_small in H by lia.
    destruct Hc as [Hc _].
    assert (r <= (T - (8 + 4)) / ty_size slot); [|lia].
    apply N.div_le_lower_bound; lia.
  - split; [lia|]. split; [lia|]. split; [lia|]. split; [intros n Hn; apply Hbig; lia|]. exact H3f.
Qed.
End Node.

Lemma LeafSize_eq slot T n : LeafSize slot T n = SizeWithNValues slot T n.
Proof. unfold LeafSize, LeafLayout, SizeWithNValues. reflexivity. Qed.

(** C55.  For every element type and every target node size below 64K, a node holds at least three elements
    (so it can be split), at least as many as fit in the target size and, if more than three, no more than fit;
    and every number from 0 to that maximum, stored in one of the node's count fields, reads back unchanged. *)
Theorem C55_node_values : forall (slot : ety) (T : N), node_ok slot T ->
  exists kN, kNodeValues slot T = Some kN /\ 3 <= kN /\
    (3 < kN -> LeafSize slot T kN <= T) /\
    (forall n, kN < n -> n < 2 ^ 32 -> T < LeafSize slot T n) /\
    (forall v, v <= kN -> stored slot T v = v).
Proof.
  intros slot T Hok. destruct (kNodeValues_spec slot T Hok) as (kN & H & H3 & _ & Hfit & Hmax & Hlt).
  exists kN. split; [exact H|]. split; [exact H3|].
  split; [intros Hk; rewrite LeafSize_eq; apply Hfit; exact Hk|].
  split; [intros n Hn Hn'; rewrite LeafSize_eq; apply Hmax; assumption|].
  intros v Hv. unfold stored. rewrite N.mod_small; [reflexivity|]. eapply N.le_lt_trans; eassumption.
Qed.
Print Assumptions C55_node_values.

(** C55, leaves and internal nodes: the max_count field tells them apart, and max_count() returns the number of
    values the node was allocated for, so that the size given back to the allocator is the size obtained. *)
Theorem C55_max_count : forall (slot : ety) (T kN : N), node_ok slot T -> kNodeValues slot T = Some kN ->
  is_leaf slot T 0 = false /\ max_count slot T kN 0 = kN /\
  forall m, 1 <= m -> m <= kN ->
    is_leaf slot T m = true /\ max_count slot T kN m = m /\
    LeafSize slot T (max_count slot T kN m) = LeafSize slot T m.
Proof.
  intros slot T kN Hok HkN. destruct (kNodeValues_spec slot T Hok) as (kN' & H & H3 & _ & _ & _ & Hlt).
  assert (kN' = kN) by congruence. subst kN'.
  assert (Hst : forall v, v <= kN -> stored slot T v = v) by (intros v Hv; apply N.mod_small; lia).
  unfold is_leaf, max_count. rewrite !Hst by lia. split; [reflexivity|]. split; [reflexivity|].
  intros m H1 H2. rewrite !Hst by lia. destruct (N.eqb_spec m 0); [lia|]. repeat split; reflexivity.
Qed.
Print Assumptions C55_max_count.

(** C55, memory of a leaf allocated for [m] values: although its fields are located with the layout of internal
    nodes, its parent pointer, its four count fields and its [m] slots lie inside the block allocated for the
    leaf, suitably aligned and pairwise disjoint. *)
Theorem C55_leaf_memory : forall (slot : ety) (T kN m base : N),
  node_ok slot T -> kNodeValues slot T = Some kN -> 1 <= m -> m <= kN ->
  let l := LeafLayout slot T m in
  let blk := block_bytes (Alignment (InternalLayout slot T kN)) (LeafSize slot T m) in
  (Alignment (InternalLayout slot T kN) | base) -> base + blk <= 2 ^ 64 ->
  (forall k j, (k < 3)%nat -> j < arr_n l k ->
     inside (field_addr slot T kN base k j) (ty_size (arr_ty l k)) base blk /\
     (ty_align (arr_ty l k) | field_addr slot T kN base k j)) /\
  (forall k j k' j', (k < 3)%nat -> j < arr_n l k -> (k' < 3)%nat -> j' < arr_n l k' -> (k, j) <> (k', j') ->
     apart (field_addr slot T kN base k j) (ty_size (arr_ty l k)) (field_addr slot T kN base k' j') (ty_size (arr_ty l k'))).
Proof.
  intros slot T kN m base Hok HkN H1 H2 l blk Hb Hblk.
  destruct (kNodeValues_spec slot T Hok) as (kN' & H & H3 & H16 & _).
  assert (kN' = kN) by congruence. subst kN'.
  assert (HA : Alignment (InternalLayout slot T kN) = Alignment l) by reflexivity.
  assert (HS : LeafSize slot T m = AllocSize l) by (unfold LeafSize, l; reflexivity).
  subst blk. rewrite HS, HA in *. clear HS.
  assert (Hf : forall k j, (k < 3)%nat -> field_addr slot T kN base k j = elem_addr l base k j).
  { intros k j Hk. unfold field_addr, elem_addr, l, LeafLayout, InternalLayout.
    rewrite (Offset_indep slot T kN (kN + 1) m 0 k) by lia. destruct k as [|[|[|k]]]; try reflexivity. lia. }
  assert (Hlen : length l = 4%nat) by reflexivity.
  destruct (C54_layout l base) as [W1 W2].
  - unfold l, LeafLayout, node_layout. repeat constructor; try (cbn; lia); try apply (proj1 Hok); try apply field_cpp;
      try (exists 1; reflexivity).
  - apply (node_bytes slot T Hok); lia.
  - discriminate.
  - exact Hb.
  - exact Hblk.
  - split.
    + intros k j Hk Hj. rewrite Hf by assumption. apply W1; [lia|assumption].
    + intros k j k' j' Hk Hj Hk' Hj' Hne. rewrite !Hf by assumption. apply W2; auto; lia.
Qed.
Print Assumptions C55_leaf_memory.

(** C55, memory of an internal node: the same for the parent pointer, the count fields, the slots and the
    [kN + 1] pointers to children. *)
Theorem C55_internal_memory : forall (slot : ety) (T kN base : N),
  node_ok slot T -> kNodeValues slot T = Some kN ->
  let l := InternalLayout slot T kN in
  let blk := block_bytes (Alignment l) (InternalSize slot T kN) in
  (Alignment l | base) -> base + blk <= 2 ^ 64 ->
  (forall k j, (k < 4)%nat -> j < arr_n l k ->
     inside (field_addr slot T kN base k j) (ty_size (arr_ty l k)) base blk /\
     (ty_align (arr_ty l k) | field_addr slot T kN base k j)) /\
  (forall k j k' j', (k < 4)%nat -> j < arr_n l k -> (k' < 4)%nat -> j' < arr_n l k' -> (k, j) <> (k', j') ->
     apart (field_addr slot T kN base k j) (ty_size (arr_ty l k)) (field_addr slot T kN base k' j') (ty_size (arr_ty l k'))).
Proof.
  intros slot T kN base Hok HkN l blk Hb Hblk.
  destruct (kNodeValues_spec slot T Hok) as (kN' & H & H3 & H16 & _).
  assert (kN' = kN) by congruence. subst kN'.
  assert (HS : InternalSize slot T kN = AllocSize l) by (unfold InternalSize, l; reflexivity).
  subst blk. rewrite HS in *. clear HS.
  destruct (C54_layout l base) as [W1 W2]; [| | |exact Hb|exact Hblk|].
  - unfold l, InternalLayout, node_layout. repeat constructor; try (cbn; lia); try apply (proj1 Hok); try apply field_cpp;
      try (exists 1; reflexivity).
  - apply (node_bytes slot T Hok); lia.
  - discriminate.
  - split; assumption.
Qed.
Print Assumptions C55_internal_memory.

(* the containers of the library: 256-byte nodes.  A node of 8-byte elements holds 30 of them, one of 1-byte elements
   244 (and the counts fit one byte), one of 100-byte elements only 3, although three do not fit 256 bytes. *)
Example C55_case : node_ok (mkEty 8 3) 256 /\ node_ok (mkEty 1 0) 256 /\ node_ok (mkEty 100 2) 256 /\ node_ok (mkEty 1 0) 4096 /\
  kNodeValues (mkEty 8 3) 256 = Some 30 /\ kNodeValues (mkEty 1 0) 256 = Some 244 /\ kNodeValues (mkEty 100 2) 256 = Some 3 /\
  LeafSize (mkEty 100 2) 256 3 = 312 /\ ty_size (field_ty (mkEty 1 0) 256) = 1 /\ ty_size (field_ty (mkEty 1 0) 4096) = 2.
Proof.
  assert (forall s a T, 1 <= s -> (2 ^ a | s) -> s < 2 ^ 30 -> T < 2 ^ 16 -> node_ok (mkEty s a) T)
    by (intros; repeat split; assumption).
  repeat match goal with |- _ /\ _ => split end; try (vm_compute; reflexivity);
    apply H; try (vm_compute; congruence); [exists 1|exists 1|exists 25|exists 1]; reflexivity.
Qed.
