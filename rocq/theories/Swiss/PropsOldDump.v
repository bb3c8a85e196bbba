(** C69: files of older versions of the library, and loading when memory is short. *)
From stdpp Require Import list.
From Coq Require Import Arith NArith ZArith Lia Permutation.
From Coq Require Import ZifyBool ZifyNat ZifyN.
From Verif.Common Require Import Res Word WordFacts.
From Verif.Swiss Require Import Group GroupSpec Model Probe Inv TableInv Resize Ops MapSpec History Reserve Multi MultiSpec MultiProof MultiHistory Dump DumpProof FailingProof PropsTable PropsMulti.
Local Open Scope nat_scope.
Local Open Scope res_scope.
Local Arguments elems : simpl never.

(** ** Model *)
Section OldDump.
Context {K V : Type} (E : env).
Notation elt := (K * V)%type.
Notation table := (table K V).
Notation W := (g_width (e_group E)).
Context (ser : elt -> list N) (raw : list N).
(* what phmap_dump wrote before the version word and growth_left were added, as phmap_load describes it (phmap_dump.hpp:81-86, 95-98, 101-103) *)
Definition dump_old (t : table) : list N :=
  le8 (N.of_nat (t_size t)) ++ le8 (N.of_nat (t_cap t)) ++
  (if t_size t =? 0 then [] else map u8_of (take (t_cap t + W + 1) (t_ctrl t)) ++ concat (map (slot_bytes ser raw) (t_slots t))).

(* the object that phmap_load (72-107) leaves behind when initialize_slots throws (93): size_ and capacity_ have been read, ctrl_ and
   slots_ are those of the cleared table.  The flag tells whether ctrl_ is a block of the allocator (and not the static empty group). *)
Definition load_header (src : list N) : N * N :=
  let '(version, src1) := read8 0 src in
  let '(size, src2) := (if (version <=? s_version_base)%N then (version, src1) else read8 0 src1) in
  let '(cap, _) := read8 0 src2 in (size, cap).
Definition load_left (src : list N) : table * bool :=
  let '(size, cap) := load_header src in (mkTable (t_ctrl (empty_table : table)) [] (N.to_nat size) (N.to_nat cap) 0%N, false).
(* destroy_slots (phmap.hpp 2646-2668) of trivially destructible elements, called by ~raw_hash_set (1870) and by the swap with an empty
   table at the start of phmap_load (78): the static group must not be given to the allocator *)
Definition destroy_trivial (x : table * bool) : res unit := if t_cap (fst x) =? 0 then Ok tt else if snd x then Ok tt else UB.
End OldDump.

Section OldProof.
Context {K V : Type} (hash : K -> N) (eqb : K -> K -> bool) (E : env).
Context (HE : env_ok E) (HK : KeyOK hash eqb).
Notation W := (g_width (e_group E)).
Notation elt := (K * V)%type.
Notation table := (table K V).
Notation good := (@good K V hash eqb E).
Notation tinv := (@tinv K V hash eqb E).
Context (ser : elt -> list N) (des : list N -> elt) (raw : list N) (HT : TrivCopy (e_slot_size E) ser des raw).
Notation load_table := (load_table hash E des raw).
(** up to drop_deletes_without_resize the old format gives the table back, but for growth_left *)
Lemma load_old (t : table) rest : good t -> t_size t <> 0 ->
  load_table (dump_old E ser raw t ++ rest) = BadAlloc \/
  load_table (dump_old E ser raw t ++ rest) =
    rmap (fun u => (wth u (t_size t) (growth_left_for E (t_cap u) (t_size t)), rest)) (drop_deletes_without_resize hash E t).
Proof.
  intros Hg H0. destruct Hg as [->|Ht]; [cbn in H0; congruence|].
  unfold Dump.load_table, dump_old. rewrite <- app_assoc.
  destruct (size_bound hash eqb E HE t Ht) as [Hsc Hc62].
  rewrite read8_le by lia. assert (Hv0 : (N.of_nat (t_size t) <=? s_version_base)%N = true) by (apply N.leb_le; unfold s_version_base; lia). rewrite Hv0.
  rewrite <- app_assoc. rewrite read8_le by lia.
  pose proof (tinv_cap _ _ _ t Ht) as Hv. pose proof (valid_cap_cases _ Hv) as Hcc.
  destruct (N.eqb_spec (N.of_nat (t_cap t)) 0); [lia|].
  pose proof (fits_no_wrap hash eqb E HE t (N.of_nat (t_cap t)) Ht ltac:(lia)) as Hnw.
  rewrite Nat2N.id.
  destruct (init_ok (K:=K) (V:=V) E (N.of_nat (t_cap t)) (t_size t) Hnw) as [[Hb Hbig]|(Hi & _ & _)].
  { left. rewrite Hb. reflexivity. }
  right. rewrite Hi. cbn [rbind]. rewrite Nat2N.id.
  destruct (Nat.eqb_spec (t_size t) 0) as [|_]; [lia|]. destruct (N.eqb_spec (N.of_nat (t_size t)) 0); [lia|].
  change (0 <? 0)%N with false. cbn iota. change (0 =? 0)%N with true. cbn iota.
  pose proof (wfc_len _ _ _ (ti_wfc _ _ _ _ (tv_0 _ _ _ _ Ht))) as Hlen.
  destruct (reset_ctrl_wf E (eo_group E HE) (t_cap t) (e_junk E) (eo_junk E HE) Hv) as [Hwf0 _].
  pose proof (wfc_len _ _ _ Hwf0) as Hlen0.
  rewrite take_ge by lia. cbn [t_ctrl t_slots t_size t_cap t_growth].
  rewrite <- app_assoc. rewrite read_map_u8 by lia.
  pose proof (ti_slen _ _ _ _ (tv_0 _ _ _ _ Ht)) as Hsl.
  rewrite read_exact.
  2:{ symmetry. apply (concat_len E ser des raw HT); [rewrite replicate_length; lia|reflexivity]. }
  pose proof (chunks_concat E ser des raw HT (t_slots t)) as Hch. rewrite Hsl in Hch. rewrite Hch.
  assert (Hctrl : map s8_of (map u8_of (t_ctrl t)) = t_ctrl t).
  { rewrite map_map. rewrite <- (map_id (t_ctrl t)) at 2. apply map_ext_in. intros c Hc.
    apply s8_u8. pose proof (ctrl_s8 hash eqb E HE HK ser des raw HT t Ht) as Hf. rewrite Forall_forall in Hf. apply Hf. apply elem_of_list_In. assumption. }
  rewrite Hctrl, (decode_ok hash eqb E HE HK ser des raw HT) by assumption.
  change (mkTable (t_ctrl t) (t_slots t) (t_size t) (t_cap t) (growth_left_for E (t_cap t) (t_size t))) with (wth t (t_size t) (growth_left_for E (t_cap t) (t_size t))).
  rewrite drop_deletes_wth. destruct (drop_deletes_without_resize hash E t); reflexivity.
Qed.
Lemma drop_growth (t u : table) : drop_deletes_without_resize hash E t = Ok u -> t_growth u = growth_left_for E (t_cap u) (t_size u).
Proof.
  unfold drop_deletes_without_resize. destruct (_ <? _); [discriminate|]. destruct (convert_ctrl _ _ _); try discriminate. cbn [rbind].
  destruct (drop_loop _ _ _ _ _); try discriminate. cbn [rbind]. intros [= <-]. reflexivity.
Qed.
Lemma load_old_ok (t : table) rest : good t -> (t_size t <> 0 -> W <= S (t_cap t)) ->
  load_table (dump_old E ser raw t ++ rest) = BadAlloc \/
  exists t', load_table (dump_old E ser raw t ++ rest) = Ok (t', rest) /\ good t' /\ t_cap t' = t_cap t /\ t_size t' = t_size t /\ elems (t_slots t') ≡ₚ elems (t_slots t).
Proof.
  intros Hg HW. destruct (Nat.eq_dec (t_size t) 0) as [H0|H0].
  - pose proof (good_size hash eqb E t Hg) as Hsz. destruct Hg as [->|Ht].
    { right. unfold Dump.load_table, dump_old. rewrite <- app_assoc. cbn [t_size t_cap empty_table Nat.eqb N.of_nat]. rewrite app_nil_r.
      rewrite read8_le by lia. change (0 <=? s_version_base)%N with true. cbn iota. rewrite read8_le by lia. cbn [N.eqb rbind N.to_nat].
      eexists. split; [reflexivity|]. split; [left; reflexivity|]. split; [reflexivity|]. split; reflexivity. }
    unfold Dump.load_table, dump_old. rewrite H0. cbn [Nat.eqb N.of_nat]. rewrite app_nil_r, <- app_assoc.
    destruct (size_bound hash eqb E HE t Ht) as [Hsc Hc62]. rewrite read8_le by lia. change (0 <=? s_version_base)%N with true. cbn iota. rewrite read8_le by lia.
    pose proof (tinv_cap _ _ _ t Ht) as Hv. pose proof (valid_cap_cases _ Hv) as Hcc. destruct (N.eqb_spec (N.of_nat (t_cap t)) 0); [lia|].
    pose proof (fits_no_wrap hash eqb E HE t (N.of_nat (t_cap t)) Ht ltac:(lia)) as Hnw. change (N.to_nat 0) with 0.
    destruct (init_ok (K:=K) (V:=V) E (N.of_nat (t_cap t)) 0 Hnw) as [[Hb Hbig]|(Hi & _ & _)]; [left; rewrite Hb; reflexivity|].
    right. rewrite Hi. cbn [rbind N.eqb]. rewrite Nat2N.id. eexists. split; [reflexivity|]. cbn [t_cap t_size t_slots].
    rewrite elems_replicate_none. split; [|repeat split; try lia; replace (elems (t_slots t)) with (@nil elt); [reflexivity|symmetry; apply nil_length_inv; lia]].
    right. destruct (fresh_tinv0 hash eqb E HE HK (V:=V) (t_cap t) 0 (growth_left_for E (t_cap t) 0) (e_junk E) (eo_junk E HE) Hv) as [Hf Hnd].
    constructor; cbn [t_slots t_ctrl t_cap t_size t_growth].
    + assumption.
    + rewrite elems_replicate_none. reflexivity.
    + rewrite Hnd. lia.
    + rewrite Hnd, (growth_left_small E HE) by (try assumption; lia). f_equal. lia.
    + intros _. assumption.
    + apply (tv_bytes _ _ _ _ Ht).
  - destruct (load_old t rest Hg H0) as [?|Hl]; [left; assumption|right]. rewrite Hl. destruct Hg as [->|Ht]; [cbn in H0; congruence|].
    destruct (drop_deletes_ok hash eqb E HE HK t Ht (HW H0)) as (u & Hr & Hu & _ & Hsu & Hcu & Hpu). pose proof (drop_growth t u Hr) as Hgr. rewrite Hr. cbn [rmap].
    exists u. split; [|split; [right; assumption|auto]]. change (rmap _ (Ok u)) with (Ok (wth u (t_size t) (growth_left_for E (t_cap u) (t_size t)), rest)). rewrite <- Hsu, <- Hgr. destruct u; reflexivity.
Qed.
End OldProof.

(** An old file of a table of at least [W - 1] buckets (15 with SSE2, 7 otherwise), or of an empty one, loads: the elements are those of the
    table, size() and bucket_count() too, what follows is left unread, and all later operations answer as those of a map with these elements. *)
Theorem C69_old_file_partial : forall (K V : Type) (hash : K -> N) (eqb : K -> K -> bool) (eeq : K * V -> K * V -> bool) (E : env)
    (ser : K * V -> list N) (des : list N -> K * V) (raw : list N) (t : table K V) (l : list (K * V)) (rest : list N) (os : list (op K V)),
  real_env E -> KeyOK hash eqb -> EltOK eqb eeq -> TrivCopy (e_slot_size E) ser des raw -> mreachable hash eqb eeq E t ->
  to_list E t = Ok l -> Forall (op_ok E) os -> l = [] \/ g_width (e_group E) - 1 <= t_cap t ->
  load_table hash E des raw (dump_old E ser raw t ++ rest) = BadAlloc \/
  exists t' l', load_table hash E des raw (dump_old E ser raw t ++ rest) = Ok (t', rest) /\
    to_list E t' = Ok l' /\ Permutation l' l /\ t_size t' = length l /\ t_cap t' = t_cap t /\
    exists t2 rs m, run hash eqb E t' os = Ok (t2, rs) /\ s_run eqb l' os rs m.
Proof.
  intros K V hash eqb eeq E ser des raw t l rest os HE0 HK HQ HT Hr Hl Ho Hsm. pose proof (real_env_ok E HE0) as HE.
  pose proof (mreachable_good hash eqb eeq E HE HK HQ t Hr) as Hg.
  destruct (iterate_ok hash eqb E HE HK t Hg) as (? & _ & H1 & _). rewrite Hl in H1. injection H1 as ->. pose proof (good_size hash eqb E t Hg) as Hsz.
  destruct (load_old_ok hash eqb E HE HK ser des raw HT t rest Hg) as [Hb|(t' & Hld & Hg' & Hcap & Hsz' & Hel)]; [|left; assumption|right].
  { intros H0. destruct Hsm as [Hn|Hn]; [|lia]. rewrite Hn in Hsz. cbn in Hsz. lia. }
  exists t', (elems (t_slots t')). split; [assumption|]. destruct (iterate_ok hash eqb E HE HK t' Hg') as (? & _ & H2 & _).
  split; [assumption|]. split; [assumption|]. split; [lia|]. split; [assumption|].
  destruct (run_ok hash eqb E HE HK os t' (elems (t_slots t'))) as (t2 & rs & m & Hrun & Hsr & _); [split; [assumption|reflexivity]|assumption|]. eauto.
Qed.
Print Assumptions C69_old_file_partial.

(** An old file of a smaller table with at least one element never loads: drop_deletes_without_resize is not made for small tables (the loop of
    ConvertDeletedToEmptyAndFullToDeleted, phmap.hpp 1038, runs past the end of the control bytes). *)
Theorem C69_old_small_file_refuted : forall (K V : Type) (hash : K -> N) (eqb : K -> K -> bool) (eeq : K * V -> K * V -> bool) (E : env)
    (ser : K * V -> list N) (des : list N -> K * V) (raw : list N) (t : table K V) (l : list (K * V)) (rest : list N),
  real_env E -> KeyOK hash eqb -> EltOK eqb eeq -> TrivCopy (e_slot_size E) ser des raw -> mreachable hash eqb eeq E t ->
  to_list E t = Ok l -> l <> [] -> t_cap t < g_width (e_group E) - 1 ->
  load_table hash E des raw (dump_old E ser raw t ++ rest) = BadAlloc \/ load_table hash E des raw (dump_old E ser raw t ++ rest) = UB.
Proof.
  intros K V hash eqb eeq E ser des raw t l rest HE0 HK HQ HT Hr Hl Hne Hsm. pose proof (real_env_ok E HE0) as HE.
  pose proof (mreachable_good hash eqb eeq E HE HK HQ t Hr) as Hg.
  destruct (iterate_ok hash eqb E HE HK t Hg) as (? & _ & H1 & _). rewrite Hl in H1. injection H1 as ->.
  assert (Hz : t_size t <> 0). { rewrite (good_size hash eqb E t Hg). intros H0. apply nil_length_inv in H0. contradiction. }
  destruct (load_old hash eqb E HE HK ser des raw HT t rest Hg Hz) as [?|Hld]; [left; assumption|right].
  rewrite Hld. unfold drop_deletes_without_resize. destruct (Nat.ltb_spec (t_cap t) (g_width (e_group E) - 1)); [reflexivity|lia].
Qed.
Print Assumptions C69_old_small_file_refuted.

(** If the table of a file (new or old format, honest or damaged) does not fit in memory, phmap_load throws std::bad_alloc with size() and
    capacity already overwritten: the container that is left behind claims elements, and its destructor gives the static empty group to
    the allocator. *)
Theorem C69_failed_load_refuted : forall (K V : Type) (hash : K -> N) (E : env) (des : list N -> K * V) (raw : list N) (size cap : N) (old : bool) (rest : list N),
  (size <= s_version_base)%N -> (0 < cap < 2 ^ 64)%N -> (e_max_bytes E < alloc_size E cap)%N ->
  let file := (if old then [] else le8 s_version) ++ le8 size ++ le8 cap ++ rest in
  load_table hash E des raw file = BadAlloc /\
  t_size (fst (load_left file : table K V * bool)) = N.to_nat size /\ destroy_trivial (load_left file : table K V * bool) = UB.
Proof.
  intros K V hash E des raw size cap old rest Hs Hc Hbig file.
  assert (Hs64 : (size < 2 ^ 64)%N) by (unfold s_version_base in Hs; lia).
  assert (Hh : load_header file = (size, cap)).
  { unfold load_header, file. destruct old; cbn [app].
    - rewrite read8_le by assumption. destruct (N.leb_spec size s_version_base); [|lia]. rewrite read8_le by lia. reflexivity.
    - rewrite read8_le by reflexivity. change (s_version <=? s_version_base)%N with false. cbn iota. rewrite read8_le by assumption. rewrite read8_le by lia. reflexivity. }
  assert (Hi : forall s, @initialize_slots K V E cap s = BadAlloc).
  { intros s. unfold initialize_slots. destruct (N.ltb_spec (e_max_bytes E) (alloc_size E cap)); [reflexivity|lia]. }
  split; [|unfold load_left; rewrite Hh; split; [reflexivity|unfold destroy_trivial; cbn [fst snd t_cap]; destruct (Nat.eqb_spec (N.to_nat cap) 0); [lia|reflexivity]]].
  unfold load_table, file. destruct old; cbn [app].
  - rewrite read8_le by assumption. destruct (N.leb_spec size s_version_base); [|lia]. rewrite read8_le by lia. destruct (N.eqb_spec cap 0); [lia|]. rewrite Hi. reflexivity.
  - rewrite read8_le by reflexivity. change (s_version <=? s_version_base)%N with false. cbn iota. rewrite read8_le by assumption. rewrite read8_le by lia. destruct (N.eqb_spec cap 0); [lia|]. rewrite Hi. reflexivity.
Qed.
Print Assumptions C69_failed_load_refuted.

(** the tables of twenty and of three elements, both with tombstones *)
Definition w_small : list (op w64 unit) := map (fun k => OEmplace (w64_of k) tt) (nums 0 3) ++ map (fun k => OErase (w64_of k)) (nums 1 1).
Example C69_example : exists t rs t' t3 rs3,
  run w_hash w_eqb ex_env empty_table w_ops = Ok (t, rs) /\ t_cap t = 31 /\
  load_table w_hash ex_env w_des (replicate 8 0%N) (dump_old ex_env w_ser (replicate 8 0%N) t ++ [7%N]) = Ok (t', [7%N]) /\ t_size t' = 10 /\ t_growth t' = 18%N /\
  run w_hash w_eqb ex_env empty_table w_small = Ok (t3, rs3) /\ t_size t3 = 2 /\ t_cap t3 = 3 /\
  load_table w_hash ex_env w_des (replicate 8 0%N) (dump_old ex_env w_ser (replicate 8 0%N) t3) = UB.
Proof.
  do 5 eexists. split; [vm_compute; reflexivity|]. split; [vm_compute; reflexivity|]. split; [vm_compute; reflexivity|]. split; [vm_compute; reflexivity|].
  split; [vm_compute; reflexivity|]. split; [vm_compute; reflexivity|]. split; [vm_compute; reflexivity|]. split; vm_compute; reflexivity.
Qed.
(** a file of 24 bytes that asks for 2^40 - 1 buckets, on a machine with a gigabyte *)
Example C69_failed_example : let E := Build_env (e_group ex_env) (2 ^ 30) 8 3 0%Z in
  (e_max_bytes E < alloc_size E (2 ^ 40 - 1))%N.
Proof. vm_compute. reflexivity. Qed.
