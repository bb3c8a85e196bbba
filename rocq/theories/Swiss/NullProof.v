(** A container with another allocator does what one with the default allocator does. *)
From stdpp Require Import list.
From Coq Require Import Arith NArith ZArith Lia.
From Coq Require Import ZifyBool ZifyNat ZifyN.
From Verif.Common Require Import Res Word WordFacts.
From Verif.Swiss Require Import Group GroupSpec Model Probe Inv TableInv Resize Ops MapSpec History Multi MultiSpec MultiProof MultiHistory Reserve NullCtrl.
Local Open Scope nat_scope.
Local Open Scope res_scope.
Local Arguments cnt : simpl never.
Local Arguments elems : simpl never.

Section NullProof.
Context {K V : Type} (hash : K -> N) (eqb : K -> K -> bool) (E : env) (eeq : K * V -> K * V -> bool).
Context (HE : env_ok E) (HK : KeyOK hash eqb) (HQ : EltOK eqb eeq).
Set Default Proof Using "HE HK HQ".
Notation elt := (K * V)%type.
Notation table := (table K V).
Notation good := (good hash eqb E).
Notation tinv := (tinv hash eqb E).

(** the table as the other allocator keeps it *)
Definition nul (t : table) : table := if t_cap t =? 0 then null_table else t.

Lemma tinv_cap0 (t : table) : tinv t -> t_cap t <> 0.
Proof using. intros Ht. pose proof (valid_cap_cases _ (tinv_cap hash eqb E t Ht)). lia. Qed.
Lemma nul_empty : nul empty_table = null_table.
Proof using. reflexivity. Qed.
Lemma nul_tinv (t : table) : tinv t -> nul t = t.
Proof using. intros Ht. unfold nul. pose proof (tinv_cap0 t Ht). destruct (Nat.eqb_spec (t_cap t) 0); [lia|reflexivity]. Qed.
Lemma notnull_tinv (t : table) : tinv t -> is_null t = false.
Proof using.
  intros Ht. unfold is_null. pose proof (wfc_len _ _ _ (ti_wfc _ _ _ _ (tv_0 _ _ _ _ Ht))) as Hl.
  destruct (t_ctrl t); [cbn in Hl; lia|reflexivity].
Qed.
Lemma nul_size (t : table) : good t -> t_size (nul t) = t_size t /\ t_cap (nul t) = t_cap t.
Proof using. intros [->|Ht]; [split; reflexivity|]. rewrite nul_tinv by assumption. auto. Qed.

Lemma find_a (t : table) k : good t -> find_key_a hash eqb E (nul t) k = find_key hash eqb E t k.
Proof.
  intros [->|Ht]; [|rewrite nul_tinv by assumption; unfold find_key_a; rewrite notnull_tinv by assumption; reflexivity].
  rewrite find_empty by assumption. reflexivity.
Qed.
Lemma grow_null : rehash_and_grow_if_necessary hash E null_table = rehash_and_grow_if_necessary hash E (@empty_table K V).
Proof using. reflexivity. Qed.
Lemma prepare_a (t : table) k : good t -> absent eqb t k ->
  prepare_insert_a hash E (nul t) (hash k) = prepare_insert hash E t (hash k).
Proof.
  intros [->|Ht] Ha.
  - unfold prepare_insert_a. rewrite nul_empty. cbn [is_null null_table t_ctrl].
    rewrite grow_null. unfold prepare_insert at 2. change (t_ctrl empty_table) with (kSentinel :: replicate 15 kEmpty).
    change (t_cap empty_table) with 0. rewrite (ffnf_empty E HE). cbn [rbind load lookup list_lookup of_option].
    change ((t_growth (@empty_table K V) =? 0)%N && negb (IsDeleted kSentinel)) with true. cbn [rbind].
    destruct (grow_ok hash eqb E HE HK (@empty_table K V) (or_introl eq_refl) eq_refl) as [[Hb _]|(t1 & Hr & Ht1 & Hnd & Hsz & _ & Hroom & _)].
    + rewrite Hb. reflexivity.
    + rewrite Hr. cbn [rbind]. unfold prepare_insert.
      destruct (find_first_non_full E (t_ctrl t1) (t_cap t1) (hash k)) as [p| | | |]; cbn [rbind]; try reflexivity.
      destruct (load (t_ctrl t1) p) as [c| | | |] eqn:Hl; cbn [rbind]; try reflexivity.
      pose proof (tv_growth _ _ _ _ Ht1) as Hg. rewrite Hnd in Hg.
      destruct (N.eqb_spec (t_growth t1) 0) as [H0|_]; [lia|]. cbn [andb rbind]. rewrite Hl. reflexivity.
  - rewrite nul_tinv by assumption. unfold prepare_insert_a. rewrite notnull_tinv by assumption. reflexivity.
Qed.

Definition nulr {A} (r : res (table * A)) : res (table * A) := let* (t, a) := r in Ok (nul t, a).
Lemma emplace_a_ok (t : table) k v : good t ->
  emplace_a hash eqb E (nul t) k v = (let* (t', p, b) := emplace hash eqb E t k v in Ok (nul t', p, b)).
Proof.
  intros Hg. unfold emplace_a. rewrite find_a by assumption.
  destruct (present_or_absent eqb t k) as [(i & e & Hs & Hk)|Ha].
  - rewrite (emplace_old hash eqb E HE HK t k v i e Hg Hs Hk), (good_find_present hash eqb E HE HK t k i e Hg Hs Hk). reflexivity.
  - pose proof (emplace_new hash eqb E HE HK t k v Hg Ha) as Hn. unfold emplace in *.
    rewrite (good_find_absent hash eqb E HE HK t k Hg Ha) in *. cbn [rbind] in *. rewrite prepare_a by assumption.
    destruct (prepare_insert hash E t (hash k)) as [[t1 p]| | | |]; cbn [rbind] in *; try reflexivity.
    destruct (finish_insert hash E t1 p (k, v)) as [t2| | | |]; cbn [rbind] in *; try reflexivity.
    destruct Hn as [(Hb & _)|(t' & q & He & Ht' & _)]; [discriminate|]. injection He as <- <-.
    rewrite nul_tinv by assumption. reflexivity.
Qed.
Lemma emplace_good (t t' : table) k v p b : good t -> emplace hash eqb E t k v = Ok (t', p, b) ->
  tinv t' /\ (b = false -> t' = t).
Proof.
  intros Hg He. destruct (present_or_absent eqb t k) as [(i & e & Hs & Hk)|Ha].
  - rewrite (emplace_old hash eqb E HE HK t k v i e Hg Hs Hk) in He. injection He as <- <- <-.
    split; [|auto]. destruct Hg as [->|]; [discriminate|assumption].
  - destruct (emplace_new hash eqb E HE HK t k v Hg Ha) as [(Hb & _)|(t2 & q & He2 & Ht2 & _)]; [congruence|].
    rewrite He in He2. injection He2 as <- <- ->. split; [assumption|discriminate].
Qed.
Lemma erase_a (t : table) k : good t ->
  erase_key_a hash eqb E (nul t) k = (let* (e, t') := erase_key hash eqb E t k in Ok (e, nul t')).
Proof.
  intros Hg. unfold erase_key_a. rewrite find_a by assumption.
  destruct (present_or_absent eqb t k) as [(i & e & Hs & Hk)|Ha].
  - destruct (erase_key_present hash eqb E HE HK t k i e Hg Hs Hk) as (t' & He & Ht' & _). rewrite He. cbn [rbind].
    rewrite (nul_tinv t') by assumption. destruct Hg as [->|Ht]; [discriminate|]. rewrite nul_tinv by assumption.
    unfold erase_key in He. rewrite (good_find_present hash eqb E HE HK t k i e (or_intror Ht) Hs Hk) in *. exact He.
  - unfold erase_key. rewrite (good_find_absent hash eqb E HE HK t k Hg Ha). reflexivity.
Qed.
Lemma rehash_a_ok (t : table) n : good t -> (n <> 0%N \/ t_cap t = 0) -> (n < 2 ^ 64)%N -> (n <> 0%N -> no_wrap E (NormalizeCapacity n)) ->
  rehash_a hash E (nul t) n = rmap nul (rehash hash E t n).
Proof.
  intros Hg Hn H64 Hw. destruct (N.eq_dec n 0) as [->|Hn0].
  - destruct Hn as [|Hc]; [contradiction|]. unfold rehash_a, rehash. rewrite (proj2 (nul_size t Hg)), Hc.
    reflexivity.
  - destruct (rehash_ok hash eqb E HE HK t n Hg Hn0 H64 (Hw Hn0)) as [[Hb _]|(t' & Hr & Hg' & Hx)].
    + unfold rehash_a, rehash in *. destruct (nul_size t Hg) as [-> ->].
      destruct (N.eqb_spec n 0); [contradiction|]. cbn [andb orb] in *.
      destruct (N.of_nat (t_cap t) <? _)%N; [|discriminate].
      replace (resize hash E (nul t) (NormalizeCapacity (N.max n (N.of_nat (t_size t))))) with (resize hash E t (NormalizeCapacity (N.max n (N.of_nat (t_size t))))).
      * rewrite Hb. reflexivity.
      * destruct Hg as [->|Ht]; [reflexivity|rewrite nul_tinv by assumption; reflexivity].
    + rewrite Hr. unfold rehash_a, rehash in *. destruct (nul_size t Hg) as [-> ->].
      destruct (N.eqb_spec n 0); [contradiction|]. cbn [andb orb rmap] in *.
      destruct (N.of_nat (t_cap t) <? _)%N; [|injection Hr as <-; reflexivity].
      replace (resize hash E (nul t) (NormalizeCapacity (N.max n (N.of_nat (t_size t))))) with (resize hash E t (NormalizeCapacity (N.max n (N.of_nat (t_size t))))).
      * rewrite Hr. unfold rmap. cbn [rbind]. destruct Hg' as [->|Ht']; [|rewrite nul_tinv by assumption; reflexivity].
        exfalso. cbn in Hx. lia.
      * destruct Hg as [->|Ht]; [reflexivity|rewrite nul_tinv by assumption; reflexivity].
Qed.

Lemma reserve_a_ok (t : table) n : good t -> op_ok E (@OReserve K V n) ->
  reserve_a hash E (nul t) n = rmap nul (reserve hash E t n).
Proof.
  intros Hg (Hn & Hn62 & Hw). unfold reserve_a, reserve.
  destruct (g2l_eq (g_width (e_group E)) n ltac:(lia) Hn62) as (m & Hm & Hge & Hm63 & _). rewrite Hm. cbn [rbind].
  apply rehash_a_ok; [assumption|left; lia| |auto]. change (2 ^ 64)%N with (2 * 2 ^ 63)%N. lia.
Qed.
Lemma begin_a_ok (t : table) : good t -> begin_a E (nul t) = begin_it E t.
Proof.
  intros [->|Ht]; [|unfold begin_a; rewrite nul_tinv, notnull_tinv by assumption; reflexivity].
  rewrite nul_empty. unfold begin_a. cbn [is_null null_table t_ctrl]. reflexivity.
Qed.
Lemma to_list_a_ok (t : table) : good t -> to_list_a E (nul t) = to_list E t.
Proof.
  intros Hg. unfold to_list_a, to_list, iterate. rewrite begin_a_ok by assumption.
  destruct Hg as [->|Ht]; [reflexivity|]. rewrite nul_tinv by assumption.
  destruct (begin_it E t) as [i| | | |]; reflexivity.
Qed.
Lemma clear_a_ok (t : table) : good t -> clear E (nul t) = rmap nul (clear E t).
Proof.
  intros Hg. destruct (clear_ok hash eqb E HE HK t Hg) as (t' & Hc & Hg' & _ & _ & Hcap). rewrite Hc. unfold rmap. cbn [rbind].
  destruct Hg as [->|Ht]; [injection Hc as <-; reflexivity|]. rewrite nul_tinv by assumption. rewrite Hc.
  unfold nul. rewrite Hcap. pose proof (tinv_cap0 t Ht). destruct (Nat.eqb_spec (t_cap t) 0); [lia|reflexivity].
Qed.
Lemma deref_nul (t : table) p : good t -> deref (nul t) p = deref t p.
Proof using. intros [->|Ht]; [destruct p; reflexivity|rewrite nul_tinv by assumption; reflexivity]. Qed.

Lemma exec_a_ok (t : table) o : good t -> op_ok E o -> exec_a hash eqb E (nul t) o = nulr (exec hash eqb E t o).
Proof.
  intros Hg Ho. destruct o as [k v|k v|k|k| |n|n| |]; cbn [exec_a exec].
  - rewrite emplace_a_ok by assumption.
    destruct (emplace hash eqb E t k v) as [[[t1 p] b]| | | |] eqn:He; cbn [rbind catch nulr]; try reflexivity.
    destruct (emplace_good t t1 k v p b Hg He) as [Ht1 _]. rewrite deref_nul by (right; assumption).
    destruct (deref t1 p) as [e| | | |]; reflexivity.
  - unfold insert_or_assign_a, insert_or_assign. rewrite emplace_a_ok by assumption.
    destruct (emplace hash eqb E t k v) as [[[t1 p] b]| | | |] eqn:He; cbn [rbind catch nulr]; try reflexivity.
    destruct (emplace_good t t1 k v p b Hg He) as [Ht1 _]. rewrite (nul_tinv t1) by assumption. destruct b; cbn [rbind].
    + destruct (deref t1 p) as [e| | | |]; cbn [rbind catch nulr]; try reflexivity. rewrite (nul_tinv t1) by assumption. reflexivity.
    + destruct (assign_at t1 p v) as [t2| | | |] eqn:Ha; cbn [rbind catch nulr]; try reflexivity.
      assert (Hc2 : t_cap t2 = t_cap t1).
      { unfold assign_at in Ha. destruct (load _ _) as [s| | | |]; cbn [rbind] in Ha; try discriminate.
        destruct (of_option s) as [x| | | |]; cbn [rbind] in Ha; try discriminate.
        destruct (store _ _ _) as [sl| | | |]; cbn [rbind] in Ha; try discriminate. injection Ha as <-. reflexivity. }
      pose proof (tinv_cap0 t1 Ht1).
      destruct (deref t2 p) as [e| | | |]; cbn [rbind catch nulr]; try reflexivity.
      unfold nul. rewrite Hc2. destruct (Nat.eqb_spec (t_cap t1) 0); [lia|reflexivity].
  - rewrite find_a by assumption. destruct (find_key hash eqb E t k) as [[p|]| | | |]; cbn [rbind nulr]; try reflexivity.
    rewrite deref_nul by assumption. destruct (deref t p) as [e| | | |]; reflexivity.
  - rewrite erase_a by assumption. destruct (erase_key hash eqb E t k) as [[e t1]| | | |]; reflexivity.
  - rewrite clear_a_ok by assumption. destruct (clear E t); reflexivity.
  - destruct Ho as (Hn & H64 & Hw). rewrite rehash_a_ok by auto. destruct (rehash hash E t n); reflexivity.
  - rewrite reserve_a_ok by assumption. destruct (reserve hash E t n); reflexivity.
  - cbn [nulr rbind]. rewrite (proj1 (nul_size t Hg)). reflexivity.
  - rewrite to_list_a_ok by assumption. destruct (to_list E t); reflexivity.
Qed.

Lemma copy_a_ok (t : table) : good t -> copy_a hash E (nul t) = rmap nul (copy hash E t).
Proof.
  intros Hg. pose proof (copy_ok hash eqb E HE HK t Hg) as Hc. unfold copy_a, copy in *.
  destruct (nul_size t Hg) as [-> ->]. rewrite to_list_a_ok by assumption.
  destruct Hg as [->|Ht]; [reflexivity|].
  assert (H0 : rehash_a hash E null_table (N.of_nat (t_cap t)) = rehash hash E (@empty_table K V) (N.of_nat (t_cap t))).
  { unfold rehash_a, rehash. pose proof (tinv_cap0 t Ht). destruct (N.eqb_spec (N.of_nat (t_cap t)) 0); [lia|].
    cbn [andb orb]. change (t_cap null_table) with 0. change (t_cap empty_table) with 0. change (t_size null_table) with 0. change (t_size empty_table) with 0.
    destruct (N.of_nat 0 <? _)%N eqn:Hlt; [reflexivity|].
    exfalso. destruct (size_bound hash eqb E HE t Ht) as [_ Hb].
    destruct (normalize_ge (N.max (N.of_nat (t_cap t)) (N.of_nat 0))) as [H1 H2]; [change (2 ^ 64)%N with (4 * 2 ^ 62)%N; lia|]. lia. }
  rewrite H0. destruct (rehash hash E empty_table (N.of_nat (t_cap t))) as [t0| | | |]; cbn [rbind] in *; try reflexivity.
  destruct (to_list E t) as [l| | | |]; cbn [rbind] in *; try reflexivity.
  destruct (copy_loop hash E l t0) as [t1| | | |]; cbn [rbind] in *; try reflexivity.
  unfold rmap. cbn [rbind]. destruct Hc as [[Hb _]|(t' & He & Hg' & Hcap & _)]; [discriminate|]. injection He as <-.
  f_equal. unfold nul. cbn [t_cap] in *. rewrite Hcap. pose proof (tinv_cap0 t Ht). destruct (Nat.eqb_spec (t_cap t) 0); [lia|reflexivity].
Qed.
Lemma has_a_ok (t : table) x : good t -> has_element_a hash E eeq (nul t) x = has_element hash E eeq t x.
Proof.
  intros Hg. unfold has_element_a. destruct Hg as [->|Ht]; [|rewrite nul_tinv, notnull_tinv by assumption; reflexivity].
  cbn [nul t_cap empty_table Nat.eqb is_null null_table t_ctrl].
  destruct (has_element_ok hash eqb E HE HK eeq HQ (@empty_table K V) x (or_introl eq_refl)) as (b & -> & Hb). f_equal.
  destruct b; [|reflexivity]. destruct (proj1 Hb eq_refl) as (e & [] & _).
Qed.
Lemma all_in_a_ok (t : table) l : good t -> all_in_a hash E eeq l (nul t) = all_in hash E eeq l t.
Proof.
  intros Hg. induction l as [|x l IH]; cbn [all_in_a all_in]; [reflexivity|]. rewrite has_a_ok by assumption.
  destruct (has_element hash E eeq t x) as [b| | | |]; cbn [rbind]; try reflexivity. destruct b; [exact IH|reflexivity].
Qed.
Lemma table_eq_a_ok (a b : table) : good a -> good b -> table_eq_a hash E eeq (nul a) (nul b) = table_eq hash E eeq a b.
Proof.
  intros Ha Hb. unfold table_eq_a, table_eq. destruct (nul_size a Ha) as [-> ->], (nul_size b Hb) as [-> ->].
  destruct (t_size a =? t_size b); [|reflexivity]. destruct (t_cap b <? t_cap a); cbn [fst snd];
    rewrite to_list_a_ok by assumption; destruct (to_list E _) as [l| | | |]; cbn [rbind]; try reflexivity; apply all_in_a_ok; assumption.
Qed.
Lemma merge_loop_a_ok fuel : forall (dst src : table) i, good dst -> tinv src ->
  merge_loop_a hash eqb E fuel (nul dst) src i =
  (let* (d, s, b) := merge_loop hash eqb E fuel dst src i in Ok (nul d, nul s, b)).
Proof.
  induction fuel as [|f IH]; intros dst src i Hd Hs; cbn [merge_loop_a merge_loop]; [reflexivity|].
  destruct (i =? t_cap src); [cbn [rbind]; rewrite (nul_tinv src) by assumption; reflexivity|].
  destruct (deref src i) as [e| | | |] eqn:He; cbn [rbind]; try reflexivity.
  rewrite emplace_a_ok by assumption.
  destruct (emplace hash eqb E dst (fst e) (snd e)) as [[[d1 p] b]| | | |] eqn:Hem; cbn [rbind]; try reflexivity.
  2: { rewrite (nul_tinv src) by assumption. reflexivity. }
  destruct (emplace_good dst d1 _ _ p b Hd Hem) as [Hd1 _].
  assert (Hsl : t_slots src !! i = Some (Some e)).
  { unfold deref, load in He. destruct (t_slots src !! i) as [[x|]|]; cbn in He; congruence. }
  destruct b; cbn [rbind].
  - destruct (erase_at_ok hash eqb E (eo_group E HE) HK src i e Hs Hsl) as (s1 & Her & Hs1 & _). rewrite Her. cbn [rbind].
    destruct (next_it E s1 i) as [j| | | |]; cbn [rbind]; try reflexivity. apply IH; auto. right; assumption.
  - destruct (next_it E src i) as [j| | | |]; cbn [rbind]; try reflexivity. apply IH; auto. right; assumption.
Qed.
Lemma merge_a_ok (dst src : table) : good dst -> good src ->
  merge_a hash eqb E (nul dst) (nul src) = (let* (d, s, b) := merge hash eqb E dst src in Ok (nul d, nul s, b)).
Proof.
  intros Hd Hs. unfold merge_a, merge. rewrite begin_a_ok, (proj2 (nul_size src Hs)) by assumption.
  destruct Hs as [->|Ht]; [reflexivity|]. rewrite (nul_tinv src) by assumption.
  destruct (begin_it E src) as [i| | | |]; cbn [rbind]; try reflexivity. apply merge_loop_a_ok; assumption.
Qed.
Lemma erase_if_a_ok (p : elt -> bool) (t : table) : good t ->
  erase_if_a E p (nul t) = (let* (t', c, seen) := erase_if E p t in Ok (nul t', c, seen)).
Proof.
  intros Hg. pose proof (erase_if_ok hash eqb E HE HK p t Hg) as He. unfold erase_if_a, erase_if in *.
  rewrite begin_a_ok by assumption. destruct Hg as [->|Ht]; [reflexivity|]. rewrite (nul_tinv t) by assumption.
  destruct (begin_it E t) as [i| | | |]; cbn [rbind] in *; try reflexivity.
  destruct (erase_if_loop E (S (t_cap t)) p t i) as [[t1 seen]| | | |]; cbn [rbind] in *; try reflexivity.
  destruct He as (t' & He & Hg' & Hcap & _). injection He as <- _ _. unfold nul. rewrite Hcap. pose proof (tinv_cap0 t Ht).
  destruct (Nat.eqb_spec (t_cap t) 0); [lia|reflexivity].
Qed.
Lemma insert_node_a_ok (t : table) n : good t ->
  insert_node_a hash eqb E (nul t) n = (let* (t', m, b) := insert_node hash eqb E t n in Ok (nul t', m, b)).
Proof.
  intros Hg. destruct n as [e|]; cbn [insert_node_a insert_node]; [|reflexivity]. rewrite emplace_a_ok by assumption.
  destruct (emplace hash eqb E t (fst e) (snd e)) as [[[t1 p] b]| | | |]; reflexivity.
Qed.

(** ** Whole programs *)
Lemma load_map {A B} (f : A -> B) (l : list A) i : load (map f l) i = rmap f (load l i).
Proof using. unfold load. rewrite list_lookup_fmap. destruct (l !! i); reflexivity. Qed.
Lemma map_ins {A B} (f : A -> B) (l : list A) i x : map f (<[i := x]> l) = <[i := f x]> (map f l).
Proof using. apply list_fmap_insert. Qed.
Definition null3 {A B} (r : res (list table * A * B)) : res (list table * A * B) := let* (ts, a, b) := r in Ok (map nul ts, a, b).
Lemma mexec_a_ok (ts : list table) ns o : Forall good ts -> mop_ok E (length ts) (length ns) o ->
  mexec_a hash eqb E eeq (map nul ts) ns o = null3 (mexec hash eqb eeq E ts ns o).
Proof.
  intros HF Ho. assert (Hl : forall i t, load ts i = Ok t -> good t).
  { intros i t Hi. unfold load in Hi. destruct (ts !! i) as [x|] eqn:Hx; [|discriminate]. injection Hi as ->.
    rewrite Forall_lookup in HF. eauto. }
  destruct o as [i o1|i j|i j|i j|i j|i k n|i n|i j|i p]; cbn [mexec_a mexec mop_ok] in *; rewrite ?load_map.
  - destruct (load ts i) as [t| | | |] eqn:Hi; cbn [rbind rmap null3]; try reflexivity.
    rewrite exec_a_ok by (try apply Ho; eauto). destruct (exec hash eqb E t o1) as [[t' r]| | | |]; cbn [rbind nulr null3]; try reflexivity.
    rewrite map_ins. reflexivity.
  - destruct (load ts i) as [t| | | |] eqn:Hi; cbn [rbind rmap null3]; try reflexivity.
    destruct (load ts j) as [u| | | |] eqn:Hj; cbn [rbind rmap null3]; try reflexivity.
    rewrite copy_a_ok by eauto. destruct (copy hash E u); cbn [rbind rmap null3]; try reflexivity. rewrite map_ins. reflexivity.
  - destruct (load ts i) as [t| | | |] eqn:Hi; cbn [rbind rmap null3]; try reflexivity.
    destruct (load ts j) as [u| | | |] eqn:Hj; cbn [rbind rmap null3 move_out_a move_out]; try reflexivity.
    rewrite !map_ins. reflexivity.
  - destruct (load ts i) as [t| | | |] eqn:Hi; cbn [rbind rmap null3]; try reflexivity.
    destruct (load ts j) as [u| | | |] eqn:Hj; cbn [rbind rmap null3]; try reflexivity.
    rewrite !map_ins. reflexivity.
  - destruct (i =? j); [reflexivity|].
    destruct (load ts i) as [t| | | |] eqn:Hi; cbn [rbind rmap null3]; try reflexivity.
    destruct (load ts j) as [u| | | |] eqn:Hj; cbn [rbind rmap null3]; try reflexivity.
    rewrite merge_a_ok by eauto. destruct (merge hash eqb E t u) as [[[t1 u1] b]| | | |]; cbn [rbind null3]; try reflexivity.
    rewrite !map_ins. reflexivity.
  - destruct (load ts i) as [t| | | |] eqn:Hi; cbn [rbind rmap null3]; try reflexivity.
    destruct (load ns n) as [nd| | | |] eqn:Hn; cbn [rbind null3]; try reflexivity.
    rewrite erase_a by eauto. destruct (erase_key hash eqb E t k) as [[e t1]| | | |]; cbn [rbind null3]; try reflexivity.
    rewrite map_ins. reflexivity.
  - destruct (load ts i) as [t| | | |] eqn:Hi; cbn [rbind rmap null3]; try reflexivity.
    destruct (load ns n) as [nd| | | |] eqn:Hn; cbn [rbind null3]; try reflexivity.
    rewrite insert_node_a_ok by eauto. destruct (insert_node hash eqb E t nd) as [[[t1 m] b]| | | |]; cbn [rbind null3]; try reflexivity.
    rewrite map_ins. reflexivity.
  - destruct (load ts i) as [t| | | |] eqn:Hi; cbn [rbind rmap null3]; try reflexivity.
    destruct (load ts j) as [u| | | |] eqn:Hj; cbn [rbind rmap null3]; try reflexivity.
    rewrite table_eq_a_ok by eauto. destruct (table_eq hash E eeq t u); reflexivity.
  - destruct (load ts i) as [t| | | |] eqn:Hi; cbn [rbind rmap null3]; try reflexivity.
    rewrite erase_if_a_ok by eauto. destruct (erase_if E p t) as [[[t1 c] seen]| | | |]; cbn [rbind null3]; try reflexivity.
    rewrite map_ins. reflexivity.
Qed.
Lemma R_all (ts : list table) : Forall good ts -> Forall2 (History.R hash eqb E) ts (map (fun t => elems (t_slots t)) ts).
Proof using. induction 1; cbn; constructor; auto. split; [assumption|reflexivity]. Qed.
Lemma mrun_a_ok os : forall (ts : list table) ns, Forall good ts -> Forall (mop_ok E (length ts) (length ns)) os ->
  mrun_a hash eqb E eeq (map nul ts) ns os = null3 (mrun hash eqb eeq E ts ns os).
Proof.
  induction os as [|o os IH]; intros ts ns HF Ho; cbn [mrun_a mrun]; [reflexivity|].
  inversion Ho as [|? ? Ho1 Ho2]; subst. rewrite mexec_a_ok by assumption.
  destruct (mexec_ok hash eqb eeq E HE HK HQ ts ns _ o (R_all ts HF) Ho1) as (ts1 & ns1 & r & ms1 & He & _ & HF1 & Hl1 & Hl2).
  rewrite He. cbn [rbind null3]. rewrite IH.
  - destruct (mrun hash eqb eeq E ts1 ns1 os) as [[[ts2 ns2] rs]| | | |]; reflexivity.
  - clear -HF1. induction HF1 as [|x y l k [H _] _ IH]; constructor; auto.
  - rewrite Hl1, Hl2. assumption.
Qed.

(** ** Moving between containers whose allocators differ *)
Context (mv : V -> V).
Local Notation mvd := (fun e : K * V => (fst e, mv (snd e))).
Lemma move_all_ok : forall fuel (dst src : table) i, tinv dst -> tinv src -> i <= t_cap src -> t_cap src - i < fuel ->
  (i = t_cap src \/ exists e, t_slots src !! i = Some (Some e)) ->
  ndel (t_ctrl dst) (t_cap dst) = 0 -> t_size dst + length (elems (drop i (t_slots src))) <= CapacityToGrowth (g_width (e_group E)) (t_cap dst) ->
  (forall e f, In e (elems (drop i (t_slots src))) -> In f (elems (t_slots dst)) -> eqb (fst f) (fst e) = false) ->
  exists dst' src', move_all hash eqb E mv fuel dst src i = Ok (Some dst', src') /\ tinv dst' /\ tinv src' /\
    t_cap dst' = t_cap dst /\
    elems (t_slots dst') ≡ₚ elems (drop i (t_slots src)) ++ elems (t_slots dst) /\
    t_cap src' = t_cap src /\
    elems (t_slots src') = elems (take i (t_slots src)) ++ map mvd (elems (drop i (t_slots src))).
Proof.
  induction fuel as [|f IH]; intros dst src i Hd Hs Hi Hf Hst Hnd Hroom Hfresh; [lia|]. cbn [move_all].
  pose proof (ti_slen _ _ _ _ (tv_0 _ _ _ _ Hs)) as Hsl.
  destruct (Nat.eqb_spec i (t_cap src)) as [->|Hne].
  - exists dst, src. rewrite drop_ge, take_ge by lia. cbn. rewrite app_nil_r. auto 10.
  - destruct Hst as [?|(e & He)]; [congruence|].
    unfold deref. rewrite (load_some _ _ _ He). cbn [rbind of_option].
    destruct (next_ok hash eqb E HE HK src i Hs ltac:(lia)) as (j & Hj & Hij & Hjs & Hel & Hbet).
    assert (Hdr : elems (drop i (t_slots src)) = e :: elems (drop j (t_slots src))).
    { rewrite (drop_cons _ _ _ He), elems_cons_some, Hel. reflexivity. }
    rewrite Hdr in *. cbn [length map app] in *.
    replace (emplace_a hash eqb E dst (fst e) (snd e)) with (emplace_a hash eqb E (nul dst) (fst e) (snd e)) by (rewrite (nul_tinv dst) by assumption; reflexivity).
    rewrite emplace_a_ok by (right; assumption).
    assert (Hab : absent eqb dst (fst e)).
    { intros g Hg. rewrite (ko_sym _ _ HK). apply Hfresh; [left; reflexivity|assumption]. }
    pose proof (tv_growth _ _ _ _ Hd) as Hacc. pose proof (tv_size _ _ _ _ Hd) as Hszd.
    destruct (emplace_new hash eqb E HE HK dst (fst e) (snd e) (or_intror Hd) Hab)
      as [(_ & _ & H0)|(d1 & q & Hem & Hd1 & _ & Hsz1 & Hp1 & Hsame & Hnd1 & _)]; [lia|].
    rewrite Hem. cbn [rbind nulr]. rewrite (nul_tinv d1) by assumption. cbn [rbind].
    destruct (Hsame ltac:(lia)) as (Hcap1 & _).
    destruct (assign_ok hash eqb E HE HK src i e (mv (snd e)) Hs He) as (s1 & Has & Hs1 & Hss1 & _ & Hc1).
    rewrite Has. cbn [rbind].
    destruct (next_ok hash eqb E HE HK s1 i Hs1 ltac:(lia)) as (j' & Hj' & Hij' & Hjs' & Hel' & Hbet').
    assert (j' = j) as ->.
    { destruct (Nat.lt_trichotomy j' j) as [Hlt|[?|Hlt]]; [|assumption|].
      - destruct Hjs' as [->|(e' & He')]; [lia|]. rewrite Hss1, list_lookup_insert_ne in He' by lia.
        rewrite Hbet in He' by lia. discriminate.
      - destruct Hjs as [->|(e' & He')]; [lia|]. specialize (Hbet' j ltac:(lia)).
        rewrite Hss1, list_lookup_insert_ne in Hbet' by lia. congruence. }
    rewrite Hj'. cbn [rbind].
    assert (Hdj : drop j (t_slots s1) = drop j (t_slots src)) by (rewrite Hss1; apply drop_insert_gt; lia).
    assert (Hdist : forall e', In e' (elems (drop j (t_slots src))) -> eqb (fst e) (fst e') = false).
    { pose proof (ti_dist _ _ _ _ (tv_0 _ _ _ _ Hs)) as Hdd. 
      rewrite (elems_split (t_slots src) i), Hdr in Hdd.
      eapply (distinct_perm eqb (ko_sym _ _ HK)) in Hdd; [|apply Permutation_app_comm].
      intros e' He'. destruct Hdd as [Hx _]. apply Hx. apply in_or_app. left. assumption. }
    destruct (IH d1 s1 j Hd1 Hs1 ltac:(lia) ltac:(lia)) as (d2 & s2 & Hr & Hd2 & Hs2 & Hcd2 & Hpd2 & Hcs2 & Hes2).
    { destruct Hjs' as [->|H]; [left; reflexivity|right; exact H]. }
    { lia. }
    { rewrite Hdj, Hcap1, Hsz1. lia. }
    { intros e' g Hin Hg. rewrite Hdj in Hin. apply (Permutation_in _ Hp1) in Hg. destruct Hg as [<-|Hg].
      - cbn. apply Hdist. assumption.
      - apply Hfresh; [right; assumption|assumption]. }
    exists d2, s2. split; [exact Hr|]. split; [assumption|]. split; [assumption|]. split; [congruence|]. split; [|split; [congruence|]].
    + rewrite Hpd2, Hdj, Hp1. rewrite <- surjective_pairing. rewrite (Permutation_middle _ _ e). reflexivity.
    + rewrite Hes2, Hdj. rewrite (elems_take_next_full (t_slots s1) i j (fst e, mv (snd e))).
      * rewrite Hss1, take_insert by lia. rewrite <- app_assoc. reflexivity.
      * lia.
      * rewrite Hss1, insert_length. lia.
      * rewrite Hss1. apply list_lookup_insert. lia.
      * intros x Hx. rewrite Hss1, list_lookup_insert_ne by lia. apply Hbet. assumption.
Qed.
Lemma begin_slots (t : table) i : tinv t -> begin_it E t = Ok i -> elems (t_slots t) = elems (drop i (t_slots t)).
Proof. intros Ht Hb. destruct (begin_ok hash eqb E HE HK t Ht) as (j & Hj & _ & _ & H & _). congruence. Qed.
Lemma move_unequal_ok (src : table) : good src ->
  move_unequal hash eqb E mv (nul src) = Ok (None, nul src) \/
  exists dst' src', move_unequal hash eqb E mv (nul src) = Ok (Some (nul dst'), nul src') /\ good dst' /\ good src' /\
    elems (t_slots dst') ≡ₚ elems (t_slots src) /\ elems (t_slots src') = map mvd (elems (t_slots src)).
Proof.
  intros Hg. unfold move_unequal. rewrite (proj1 (nul_size src Hg)).
  assert (H0 : t_size src = 0 -> exists i, begin_a E (nul src) = Ok i /\ i = t_cap src).
  { intros Hz. rewrite begin_a_ok by assumption. destruct Hg as [->|Ht]; [exists 0; split; reflexivity|].
    destruct (begin_ok hash eqb E HE HK src Ht) as (j & Hj & Hle & Hor & Hel & _). exists j. split; [exact Hj|].
    destruct Hor as [?|(e & He)]; [assumption|]. rewrite (drop_cons _ _ _ He), elems_cons_some in Hel.
    rewrite (tv_size _ _ _ _ Ht), Hel in Hz. discriminate. }
  destruct (Nat.eq_dec (t_size src) 0) as [Hz|Hz].
  { right. rewrite Hz. exists empty_table, src. destruct (H0 Hz) as (i & Hb & ->).
    replace (reserve_a hash E null_table (N.of_nat 0)) with (Ok (@null_table K V)).
    2: { unfold reserve_a, GrowthToLowerboundCapacity. change (N.of_nat 0) with 0%N.
         replace ((g_width (e_group E) =? 8) && (0 =? 7)%N) with false by (destruct (g_width (e_group E) =? 8); reflexivity).
         reflexivity. }
    rewrite Hb. cbn [rbind move_all]. rewrite (proj2 (nul_size src Hg)), Nat.eqb_refl.
    split; [reflexivity|]. split; [left; reflexivity|]. split; [assumption|].
    assert (elems (t_slots src) = []) as ->.
    { destruct Hg as [->|Ht]; [reflexivity|]. rewrite (tv_size _ _ _ _ Ht) in Hz. apply nil_length_inv. assumption. }
    split; reflexivity. }
  destruct Hg as [->|Ht]; [exfalso; apply Hz; reflexivity|]. clear H0.
  destruct (size_bound hash eqb E HE src Ht) as [Hle H62].
  pose proof (tv_room _ _ _ _ Ht) as Hroom. pose proof (wfc_cap _ _ _ (ti_wfc _ _ _ _ (tv_0 _ _ _ _ Ht))) as Hvc.
  assert (Hop : op_ok E (@OReserve K V (N.of_nat (t_size src)))).
  { cbn [op_ok]. split; [lia|]. split; [lia|]. intros m Hm.
    destruct (g2l_eq (g_width (e_group E)) (N.of_nat (t_size src)) ltac:(lia) ltac:(lia)) as (m' & Hm' & _ & H63 & Hcase).
    rewrite Hm in Hm'. injection Hm' as <-.
    apply (fits_no_wrap hash eqb E HE src _ Ht). apply normalize_min; [change (2 ^ 64)%N with (2 * 2 ^ 63)%N; lia|assumption|].
    pose proof (valid_cap_cases _ Hvc). unfold CapacityToGrowth in Hroom.
    destruct (Nat.eqb_spec (g_width (e_group E)) 8) as [H8|H8], (Nat.eqb_spec (t_cap src) 7) as [H7|H7]; cbn [andb] in Hroom; lia. }
  rewrite <- nul_empty, reserve_a_ok by (try assumption; left; reflexivity).
  destruct Hop as (Hn & Hn62 & Hw).
  destruct (reserve_ok hash eqb E HE HK (empty_table : table) (N.of_nat (t_size src)) (or_introl eq_refl) Hn Hn62 Hw)
    as [[Hb _]|(d & Hr & Hgd & Hsz & Hp & _ & Hgr & Hor)].
  - left. rewrite Hb. reflexivity.
  - right. rewrite Hr. cbn [rmap]. rewrite Nat2N.id in Hgr.
    assert (Htd : tinv d).
    { destruct Hgd as [->|?]; [|assumption]. exfalso. apply Hz. cbn in Hgr. unfold CapacityToGrowth in Hgr. cbn in Hgr.
      destruct (g_width (e_group E) =? 8); cbn in Hgr; lia. }
    rewrite begin_a_ok by (right; assumption).
    destruct (begin_ok hash eqb E HE HK src Ht) as (i & Hb & Hi & Hst & Hel & Htk & _). rewrite Hb. cbn [rbind].
    unfold rmap. cbn [rbind]. rewrite (nul_tinv d), !(nul_tinv src) by assumption.
    assert (Hde : elems (t_slots d) = []) by (apply Permutation_nil; symmetry; exact Hp).
    destruct (move_all_ok (S (t_cap src)) d src i Htd Ht Hi ltac:(lia) Hst) as (d' & s' & Hm & Hd' & Hs' & _ & Hpd & _ & Hes).
    { destruct Hor as [->|?]; [reflexivity|assumption]. }
    { rewrite <- Hel, <- (tv_size _ _ _ _ Ht), Hsz. cbn. assumption. }
    { intros e f _ Hf. rewrite Hde in Hf. destruct Hf. }
    exists d', s'. rewrite !(nul_tinv d'), !(nul_tinv s') by assumption. rewrite <- Hel in *. rewrite Hde, app_nil_r in Hpd. rewrite Htk in Hes.
    split; [exact Hm|]. split; [right; assumption|]. split; [right; assumption|]. split; assumption.
Qed.
End NullProof.
