(** C88: erase(position) and extract(position) of the hash containers. *)
From stdpp Require Import list list_numbers.
From Coq Require Import Arith NArith ZArith Lia.
From Coq Require Import ZifyBool ZifyNat ZifyN.
From Verif.Common Require Import Res Word.
From Verif.Swiss Require Import Group GroupSpec GroupProof Model Probe ProbeProof Inv TableInv Resize Ops MapSpec History Multi MultiSpec MultiProof MultiHistory PropsTable PropsMulti.
From Verif.Par Require Import Seq SeqSpec SeqProof PropsSeq PropsHSeq PropsEqualRange PropsEraseRange.
Local Open Scope nat_scope.
Local Open Scope res_scope.

Section Model.
Context {K V : Type} (E : env).
Notation elt := (K * V)%type.
(* erase(iterator) (phmap.hpp 2265-2270): the next iterator is taken before _erase (2255-2259) *)
Definition erase_it (t : table K V) (i : nat) : res (table K V * nat) :=
  let* i' := next_it E t i in let* (_, t') := erase_at E t i in Ok (t', i').
(* extract(const_iterator) (2298-2302): the node takes the element, then erase_meta_only *)
Definition extract_at (t : table K V) (i : nat) : res (elt * table K V) :=
  let* e := deref t i in let* (_, t') := erase_at E t i in Ok (e, t').
(* parallel erase(iterator) (4084-4088): _erase(it++) *)
Definition p_erase_it (ps : list (table K V)) (x : nat * nat) : res (list (table K V) * pit) :=
  let* a := p_next E ps x in let* ps' := p_erase_at E ps x in Ok (ps', a).
(* parallel extract(const_iterator) (4116-4118): that of the submap of the iterator *)
Definition p_extract_at (ps : list (table K V)) (x : nat * nat) : res (elt * list (table K V)) :=
  let* t := load ps (fst x) in let* (e, t') := extract_at t (snd x) in Ok (e, <[fst x := t']> ps).
End Model.

Lemma drop_take_app {A} (l y : list A) a : a <= length l -> drop a (take a l ++ y) = y.
Proof. intros H. rewrite drop_app_ge by (rewrite take_length; lia). rewrite take_length, Nat.min_l by lia. rewrite Nat.sub_diag. reflexivity. Qed.

(** In every table that a program can reach, with l the elements of a traversal and a a position in it: erase and extract of the a-th iterator remove
    the a-th element and no other, extract gives it to the node, erase returns the iterator of the element that followed, which is the a-th now; and
    every other iterator taken before still gives its element. *)
Theorem C88_table : forall (K V : Type) (hash : K -> N) (eqb : K -> K -> bool) (E : env) (t : table K V) (l : list (K * V)) (a : nat) (e : K * V),
  real_env E -> KeyOK hash eqb -> reachable hash eqb E t -> to_list E t = Ok l -> l !! a = Some e ->
  exists i nx t', nth_it E a t = Ok i /\ deref t i = Ok e /\ erase_it E t i = Ok (t', nx) /\ extract_at E t i = Ok (e, t') /\
    to_list E t' = Ok (take a l ++ drop (S a) l) /\ S (t_size t') = t_size t /\ nth_it E (S a) t = Ok nx /\ nth_it E a t' = Ok nx /\
    (forall c e', c <> a -> l !! c = Some e' -> exists j, nth_it E c t = Ok j /\ deref t j = Ok e' /\ deref t' j = Ok e').
Proof.
  intros K V hash eqb E t l a e HR HK Hre Hl Ha. pose proof (real_env_ok E HR) as HE. pose proof (reachable_good hash eqb E HE HK t Hre) as Hg.
  assert (Htl : forall u : table K V, good hash eqb E u -> to_list E u = Ok (pe u)) by (intros u Hu; destruct (iterate_ok hash eqb E HE HK u Hu) as (is & _ & H & _); exact H).
  rewrite (Htl t Hg) in Hl. injection Hl as <-.
  assert (Hnth : forall u : table K V, good hash eqb E u -> forall c, c <= length (pe u) -> exists j, nth_it E c u = Ok j /\ at_slot u j /\ elems (drop j (t_slots u)) = drop c (pe u)).
  { intros u Hu c Hc. destruct (good_begin hash eqb E HE HK u Hu) as (i0 & Hb & Hat0 & Hel0).
    destruct (advance_ok hash eqb E HE HK c u i0 Hu Hat0) as (j & Hj & Hatj & _ & Hel); [rewrite Hel0; exact Hc|]. exists j.
    split; [unfold nth_it; rewrite Hb; exact Hj|]. split; [exact Hatj|]. rewrite Hel, Hel0. reflexivity. }
  assert (Hslot : forall c e', pe t !! c = Some e' -> exists j, nth_it E c t = Ok j /\ t_slots t !! j = Some (Some e') /\ elems (drop j (t_slots t)) = drop c (pe t)).
  { intros c e' Hc. pose proof (lookup_lt_Some _ _ _ Hc) as Hlt. destruct (Hnth t Hg c ltac:(lia)) as (j & H1 & [H2 H3] & H4). exists j. split; [exact H1|]. split; [|exact H4].
    destruct H3 as [->|(y & Hy)].
    - exfalso. destruct Hg as [->|Ht]; [destruct c; discriminate Hc|]. rewrite drop_ge in H4 by (rewrite (ti_slen _ _ _ _ (tv_0 _ _ _ _ Ht)); lia). apply (f_equal length) in H4. rewrite drop_length in H4. cbn in H4. lia.
    - rewrite (drop_S _ _ _ Hy), (drop_S _ _ _ Hc) in H4. injection H4 as -> _. exact Hy. }
  pose proof (lookup_lt_Some _ _ _ Ha) as Hal. destruct (Hslot a e Ha) as (i & Hi & Hs & Hel).
  destruct Hg as [->|Ht]; [destruct a; discriminate Ha|]. pose proof (or_intror Ht : good hash eqb E t) as Hg.
  assert (Hc : i < t_cap t) by (rewrite <- (ti_slen _ _ _ _ (tv_0 _ _ _ _ Ht)); apply lookup_lt_Some in Hs; exact Hs). pose proof (lookup_lt_Some _ _ _ Hs) as Hil.
  destruct (next_ok hash eqb E HE HK t i Ht Hc) as (i' & Hn & Hr & Hs' & Hd & _).
  destruct (erase_at_ok hash eqb E (eo_group E HE) HK t i e Ht Hs) as (t1 & Her & Ht1 & Hsl & Hcap & _).
  pose proof (or_intror Ht1 : good hash eqb E t1) as Hg1.
  assert (Hdr : forall k, i < k -> drop k (t_slots t1) = drop k (t_slots t)) by (intros k Hk; rewrite Hsl; apply drop_insert_gt; lia).
  assert (Hat : elems (drop i' (t_slots t)) = drop (S a) (pe t)).
  { rewrite (drop_S _ _ _ Hs), (drop_S _ _ _ Ha) in Hel. change (e :: elems (drop (S i) (t_slots t)) = e :: drop (S a) (pe t)) in Hel. injection Hel as Hel. rewrite <- Hd. exact Hel. }
  assert (Hpe1 : pe t1 = take a (pe t) ++ drop (S a) (pe t)).
  { unfold pe at 1. rewrite (elems_at (t_slots t1) i). assert (Hi1 : t_slots t1 !! i = Some None) by (rewrite Hsl; apply list_lookup_insert; exact Hil).
    rewrite (drop_S _ _ _ Hi1). change (elems (None :: drop (S i) (t_slots t1))) with (elems (drop (S i) (t_slots t1))). rewrite Hdr, Hd, Hat by lia. f_equal.
    rewrite Hsl, take_insert by lia. pose proof (elems_at (t_slots t) i) as Hsp. fold (pe t) in Hsp. rewrite Hel in Hsp.
    rewrite <- (take_drop a (pe t)) in Hsp at 1. apply app_inv_tail in Hsp. symmetry. exact Hsp. }
  assert (Hderef : forall (u : table K V) j y, t_slots u !! j = Some (Some y) -> deref u j = Ok y) by (intros u j y Hy; unfold deref; rewrite (load_some _ _ _ Hy); reflexivity).
  exists i, i', t1. split; [exact Hi|]. split; [apply Hderef; exact Hs|]. unfold erase_it, extract_at. rewrite (Hderef _ _ _ Hs), Hn, Her. cbn [rbind].
  split; [reflexivity|]. split; [reflexivity|]. split; [rewrite (Htl t1 Hg1), Hpe1; reflexivity|]. split.
  { rewrite (good_size hash eqb E t1 Hg1), (good_size hash eqb E t Hg). fold (pe t1) (pe t). rewrite Hpe1, app_length, take_length, drop_length. unfold pe in *. lia. }
  split; [|split].
  - destruct (Hnth t Hg (S a) ltac:(lia)) as (j & H1 & H2 & H3). rewrite H1. f_equal. apply (at_slot_unique t j i' H2); [split; [lia|exact Hs']|]. rewrite H3, Hat. reflexivity.
  - destruct (Hnth t1 Hg1 a) as (j & H1 & H2 & H3); [rewrite Hpe1, app_length, take_length; lia|]. rewrite H1. f_equal. apply (at_slot_unique t1 j i' H2).
    + split; [lia|]. rewrite Hcap. destruct Hs' as [Hs'|(y & Hy)]; [left; exact Hs'|right]. exists y. rewrite Hsl, list_lookup_insert_ne by lia. exact Hy.
    + rewrite H3, Hpe1, drop_take_app by lia. rewrite Hdr, Hat by lia. reflexivity.
  - intros c e' Hne Hce. destruct (Hslot c e' Hce) as (j & H1 & H2 & H3). exists j. split; [exact H1|]. split; [apply Hderef; exact H2|]. apply Hderef. rewrite Hsl, list_lookup_insert_ne; [exact H2|].
    intros <-. rewrite Hel in H3. apply (f_equal length) in H3. rewrite !drop_length in H3. apply lookup_lt_Some in Hce. lia.
Qed.
Print Assumptions C88_table.

(** The same in every parallel container that a program of C13 can leave. *)
Theorem C88_parallel : forall (K V : Type) (hash : K -> N) (eqb : K -> K -> bool) (eeq : K * V -> K * V -> bool)
    (E : env) (lg n1 n2 : nat) (os : list (mop K V)) cs ns rs (c : nat) (ps : list (table K V)) (l : list (K * V)) (a : nat) (e : K * V),
  real_env E -> KeyOK hash eqb -> EltOK eqb eeq -> lg <= 12 -> Forall (pmop_ok E lg n1 n2) os ->
  pm_run hash eqb eeq E lg (replicate n1 (p_empty lg)) (replicate n2 None) os = Ok (cs, ns, rs) -> cs !! c = Some ps ->
  p_to_list E ps = Ok l -> l !! a = Some e ->
  exists x nx ps', p_nth E a ps = Ok (Some x) /\ p_deref ps x = Ok e /\ p_erase_it E ps x = Ok (ps', nx) /\ p_extract_at E ps x = Ok (e, ps') /\
    p_to_list E ps' = Ok (take a l ++ drop (S a) l) /\ S (p_size ps') = p_size ps /\ p_nth E (S a) ps = Ok nx /\ p_nth E a ps' = Ok nx /\
    (forall d e', d <> a -> l !! d = Some e' -> exists y, p_nth E d ps = Ok (Some y) /\ p_deref ps y = Ok e' /\ p_deref ps' y = Ok e').
Proof.
  intros K V hash eqb eeq E lg n1 n2 os cs ns rs c ps l a e HE0 HK HQ Hlg Ho Hrun Hi Hl Ha. pose proof (real_env_ok E HE0) as HE.
  destruct (pm_run_ok hash eqb E lg HE HK Hlg eeq HQ os (replicate n1 (p_empty lg)) (replicate n2 None) (replicate n1 []))
    as (cs2 & ns2 & rs2 & ms & H1 & _ & HF); [apply pm_start|rewrite !replicate_length; assumption|].
  rewrite Hrun in H1. injection H1 as <- <- <-. destruct (Forall2_lookup_l _ _ _ _ _ HF Hi) as (m & _ & [Hg _]). clear Hrun HF.
  assert (Htl : forall qs : list (table K V), pgood hash eqb E lg qs -> p_to_list E qs = Ok (pelems qs)).
  { intros qs Hqs. apply (p_to_list_ok hash eqb E HE HK); [apply (pg_good _ _ _ _ _ Hqs)|]. rewrite (pg_len _ _ _ _ _ Hqs). apply num_pos. }
  rewrite (Htl ps Hg) in Hl. injection Hl as <-.
  assert (Hnth : forall qs : list (table K V), pgood hash eqb E lg qs -> forall d, d <= length (pelems qs) -> exists b, p_nth E d qs = Ok b /\ itpos qs b (drop d (pelems qs))).
  { intros qs Hqs d Hd. destruct (p_begin_itpos hash eqb E lg HE HK qs Hqs) as (b0 & Hb0 & Hp0).
    destruct (p_advance_ok hash eqb E HE HK d qs b0 _ (pg_good _ _ _ _ _ Hqs) Hp0 Hd) as (b & Hb & Hp). exists b. split; [unfold p_nth; rewrite Hb0; exact Hb|exact Hp]. }
  assert (Hsome : forall d e', pelems ps !! d = Some e' -> exists y t, p_nth E d ps = Ok (Some y) /\ itpos ps (Some y) (drop d (pelems ps)) /\
    ps !! fst y = Some t /\ t_slots t !! snd y = Some (Some e')).
  { intros d e' Hd. pose proof (lookup_lt_Some _ _ _ Hd) as Hdl. destruct (Hnth ps Hg d ltac:(lia)) as (b & Hb & Hp). pose proof Hp as Hp'. rewrite (drop_S _ _ _ Hd) in Hp. destruct b as [[i j]|]; [|discriminate Hp].
    destruct Hp as (t & y & A & B & C). injection C as <- _. exists (i, j), t. auto. }
  assert (Hderef : forall (qs : list (table K V)) y t e', qs !! fst y = Some t -> t_slots t !! snd y = Some (Some e') -> p_deref qs y = Ok e').
  { intros qs y t e' A B. unfold p_deref. rewrite (load_some _ _ _ A). cbn [rbind]. unfold deref. rewrite (load_some _ _ _ B). reflexivity. }
  pose proof (lookup_lt_Some _ _ _ Ha) as Hal. destruct (Hsome a e Ha) as (x & t & Hx & Hpx & Ht & Hs). pose proof Hpx as Hpx0. rewrite (drop_S _ _ _ Ha) in Hpx.
  destruct (next_itpos hash eqb E HE HK ps x e _ (pg_good _ _ _ _ _ Hg) Hpx) as (nx & Hn & Hpn).
  destruct (erase_step hash eqb E lg HE HK ps x e (drop (S a) (pelems ps)) (take a (pelems ps)) Hg Hpx) as (ps' & Her & Hg' & Hel & Hkeep); [rewrite (take_drop_middle _ _ _ Ha); reflexivity|].
  pose proof (Hkeep nx _ Hpn (Nat.le_refl _)) as Hpn'.
  destruct (Forall_lookup_1 _ _ _ _ (pg_good _ _ _ _ _ Hg) Ht) as [->|Htv]; [discriminate|].
  destruct (erase_at_ok hash eqb E (eo_group E HE) HK t (snd x) e Htv Hs) as (t1 & Her1 & Ht1 & Hsl & _).
  assert (Hps' : ps' = <[fst x := t1]> ps) by (unfold p_erase_at in Her; rewrite (load_some _ _ _ Ht) in Her; cbn [rbind] in Her; rewrite Her1 in Her; cbn [rbind] in Her; congruence).
  exists x, nx, ps'. split; [exact Hx|]. split; [apply (Hderef ps x t e Ht Hs)|]. unfold p_erase_it. rewrite Hn, Her. cbn [rbind]. split; [reflexivity|].
  split; [unfold p_extract_at, extract_at; rewrite (load_some _ _ _ Ht); cbn [rbind]; unfold deref; rewrite (load_some _ _ _ Hs); cbn [rbind of_option]; rewrite Her1; cbn [rbind]; rewrite Hps'; reflexivity|].
  split; [rewrite (Htl ps' Hg'), Hel; reflexivity|].
  split; [rewrite (p_size_ok hash eqb E ps' (pg_good _ _ _ _ _ Hg')), (p_size_ok hash eqb E ps (pg_good _ _ _ _ _ Hg)), Hel, app_length, take_length, drop_length; lia|].
  split; [|split].
  - destruct (Hnth ps Hg (S a) ltac:(lia)) as (b & Hb & Hpb). rewrite Hb. f_equal. apply (itpos_unique ps b nx _ Hpb Hpn).
  - destruct (Hnth ps' Hg' a) as (b & Hb & Hpb); [rewrite Hel, app_length, take_length; lia|]. rewrite Hel, drop_take_app in Hpb by lia. rewrite Hb. f_equal. apply (itpos_unique ps' b nx _ Hpb Hpn').
  - intros d e' Hne Hd. destruct (Hsome d e' Hd) as (y & u & Hy & Hpy & Hu & Hus). exists y. split; [exact Hy|]. split; [apply (Hderef ps y u e' Hu Hus)|].
    assert (Hxy : y <> x). { intros ->. pose proof (itpos_fun ps (Some x) _ _ Hpx0 Hpy) as H. apply (f_equal length) in H. rewrite !drop_length in H. apply lookup_lt_Some in Hd. lia. }
    rewrite Hps'. destruct (Nat.eq_dec (fst y) (fst x)) as [Hf|Hf].
    + assert (Hsn : snd y <> snd x) by (destruct x, y; cbn in *; congruence). rewrite Hf in Hu. rewrite Ht in Hu. injection Hu as <-.
      apply (Hderef _ y t1); [rewrite Hf; apply list_lookup_insert; apply lookup_lt_Some in Ht; exact Ht|]. rewrite Hsl, list_lookup_insert_ne by congruence. exact Hus.
    + apply (Hderef _ y u); [rewrite list_lookup_insert_ne by congruence; exact Hu|exact Hus].
Qed.
Print Assumptions C88_parallel.

(** nine and ten elements; the third one is taken out *)
Example C88_example : match run exp_hash N.eqb ex_env empty_table (ins (nums 0 10) ++ [OErase 3%N]) with
  | Ok (t, _) => match nth_it ex_env 2 t with
      | Ok i => match erase_it ex_env t i, extract_at ex_env t i with
          | Ok (t', n), Ok (e, _) => Some (i, n, e, to_list ex_env t, to_list ex_env t') | _, _ => None end
      | _ => None end
  | _ => None
  end = Some (2, 3, (1%N, 1%N), Ok [(0, 0); (8, 8); (1, 1); (9, 9); (2, 2); (4, 4); (5, 5); (6, 6); (7, 7)]%N, Ok [(0, 0); (8, 8); (9, 9); (2, 2); (4, 4); (5, 5); (6, 6); (7, 7)]%N).
Proof. vm_compute. reflexivity. Qed.
Example C88_parallel_example : match pm_run exp_hash N.eqb ex_eeq ex_env 2 [p_empty 2] [] (map (MOne 0) (ins (nums 0 10))) with
  | Ok ([ps], _, _) => match p_nth ex_env 2 ps with
      | Ok (Some x) => match p_erase_it ex_env ps x, p_extract_at ex_env ps x with
          | Ok (ps', n), Ok (e, _) => Some (x, n, e, p_to_list ex_env ps, p_to_list ex_env ps') | _, _ => None end
      | _ => None end
  | _ => None
  end = Some ((0, 2), Some (1, 0), (8%N, 8%N),
    Ok [(0, 0); (4, 4); (8, 8); (5, 5); (9, 9); (1, 1); (2, 2); (6, 6); (7, 7); (3, 3)]%N, Ok [(0, 0); (4, 4); (5, 5); (9, 9); (1, 1); (2, 2); (6, 6); (7, 7); (3, 3)]%N).
Proof. vm_compute. reflexivity. Qed.
