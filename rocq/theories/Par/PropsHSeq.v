(** C83: calls with a key of another type on the parallel hash containers, through a transparent hash function and equality.
    [hashQ q] is hash()(q), [eqQ q k] is eq()(k, q); the calls are made from one thread. *)
From stdpp Require Import list list_numbers.
From Coq Require Import Arith NArith ZArith Lia.
From Coq Require Import ZifyBool ZifyNat ZifyN.
From Verif.Common Require Import Res Word.
From Verif.Swiss Require Import Group GroupSpec GroupProof Model Probe ProbeProof Inv TableInv Resize Ops MapSpec History Multi MultiSpec MultiProof MultiHistory PropsTable PropsMulti HFind PropsHFind.
From Verif.Par Require Import Seq SeqSpec SeqProof PropsSeq.
Local Open Scope nat_scope.
Local Open Scope res_scope.

Section Model.
Context {K V Q : Type} (hash : K -> N) (hashQ : Q -> N) (eqQ : Q -> K -> bool) (E : env) (lg : nat).
Notation table := (table K V).
Notation ptable := (list table).
Notation elt := (K * V)%type.
(* find(key) (4196-4214), find(key, hashval, lock) (4388-4394) and find_ptr (4380-4386): the submap is chosen with hash()(q); the element
   at the iterator, or none for end() *)
Definition ph_find (ps : ptable) (q : Q) : res (option elt) :=
  let* t := load ps (subidx lg (hashQ q)) in
  let* r := hfind_key hashQ eqQ E t q in
  match r with None => Ok None | Some p => let* e := deref t p in Ok (Some e) end.
(* contains and contains_impl (4216-4232), count (4164-4167) *)
Definition ph_count (ps : ptable) (q : Q) : res nat :=
  let* t := load ps (subidx lg (hashQ q)) in
  hcount_key hashQ eqQ E t q.
(* erase_if(key, f) (3908-3934): the element is shown to f, and erased if it answers true; erase(key) (4050-4054) is this with a function
   that always answers true.  The result is the number erased and the element shown.  With one thread switch_to_unique does not
   have to be followed by a different answer of find. *)
Definition ph_erase_if (ps : ptable) (q : Q) (f : elt -> bool) : res (ptable * nat * option elt) :=
  let i := subidx lg (hashQ q) in
  let* t := load ps i in
  let* r := hfind_key hashQ eqQ E t q in
  match r with
  | None => Ok (ps, 0, None)
  | Some p =>
      let* e := deref t p in
      if f e then let* (_, t') := erase_at E t p in Ok (<[i := t']> ps, 1, Some e)
      else Ok (ps, 0, Some e)
  end.
Definition ph_erase (ps : ptable) (q : Q) : res (ptable * nat * option elt) := ph_erase_if ps q (fun _ => true).
(* extract(key) (4120-4124): find, then extract at the iterator *)
Definition ph_extract (ps : ptable) (q : Q) : res (ptable * option elt) :=
  let i := subidx lg (hashQ q) in
  let* t := load ps i in
  let* (e, t') := herase_key hashQ eqQ E t q in
  Ok (<[i := t']> ps, e).
(* modify_if (3882-3902): the callback may change the mapped value of the element *)
Definition ph_modify_if (ps : ptable) (q : Q) (f : elt -> V) : res (ptable * bool) :=
  let i := subidx lg (hashQ q) in
  let* t := load ps i in
  let* r := hfind_key hashQ eqQ E t q in
  match r with
  | None => Ok (ps, false)
  | Some p =>
      let* e := deref t p in
      let* t' := assign_at t p (f e) in
      Ok (<[i := t']> ps, true)
  end.
(* try_emplace(key, args) and try_emplace_impl_with_hash (4688-4706): the key is constructed from q *)
Context (mk : Q -> K).
Definition ph_try_emplace (ps : ptable) (q : Q) (v : V) : res (ptable * out K V) :=
  let i := subidx lg (hashQ q) in
  let* t := load ps i in
  let* (t', r) := catch t (let* (t', p, b) := htry_emplace hash hashQ eqQ E mk t q v in let* e := deref t' p in Ok (t', RInserted b e)) in
  Ok (<[i := t']> ps, r).
End Model.

Section Facts.
Context {K V Q : Type} (hash : K -> N) (eqb : K -> K -> bool) (hashQ : Q -> N) (eqQ : Q -> K -> bool) (E : env) (lg : nat).
Context (HE : env_ok E) (HK : KeyOK hash eqb) (q : Q) (Hq : matches hash eqb hashQ eqQ q).
Notation ptable := (list (table K V)).
Lemma deref_at (t : table K V) p e : t_slots t !! p = Some (Some e) -> deref t p = Ok e.
Proof using. intros H. unfold deref. rewrite (load_some _ _ _ H). reflexivity. Qed.
Lemma elems_split (sl : list (option (K * V))) p e x : sl !! p = Some (Some e) ->
  exists l1 l2, elems sl = l1 ++ e :: l2 /\ elems (<[p := Some x]> sl) = l1 ++ x :: l2.
Proof using.
  revert p. induction sl as [|[y|] sl IH]; intros [|p] Hp; cbn in Hp; try discriminate.
  - injection Hp as ->. exists [], (elems sl). split; reflexivity.
  - destruct (IH p Hp) as (l1 & l2 & H1 & H2). exists (y :: l1), l2. split; [rewrite <- app_comm_cons, <- H1|rewrite <- app_comm_cons, <- H2]; reflexivity.
  - destruct (IH p Hp) as (l1 & l2 & H1 & H2). exists l1, l2. split; [rewrite <- H1|rewrite <- H2]; reflexivity.
Qed.
Lemma pelems_split (ps : ptable) i t t' : ps !! i = Some t -> exists l1 l2, pelems ps = l1 ++ pe t ++ l2 /\ pelems (<[i := t']> ps) = l1 ++ pe t' ++ l2.
Proof using.
  revert i. induction ps as [|u ps IH]; intros [|i] Hi; cbn in Hi; try discriminate.
  - injection Hi as ->. exists [], (pelems ps). split; reflexivity.
  - destruct (IH i Hi) as (l1 & l2 & H1 & H2). exists (pe u ++ l1), l2. rewrite <- !app_assoc, <- H1, <- H2. split; reflexivity.
Qed.
(** where an element that equals q is *)
Lemma ph_place (ps : ptable) e : pgood hash eqb E lg ps -> In e (pelems ps) -> eqQ q (fst e) = true ->
  exists t p, ps !! subidx lg (hashQ q) = Some t /\ good hash eqb E t /\ t_slots t !! p = Some (Some e) /\ hfind_key hashQ eqQ E t q = Ok (Some p).
Proof using HE HK Hq.
  intros Hg Hin He. apply in_pelems in Hin as (i & t & Hi & Hin). pose proof (pg_routed _ _ _ _ _ Hg i t e Hi Hin) as Hr.
  rewrite <- (mq_hash _ _ _ _ _ Hq _ He) in Hr. assert (Hgt : good hash eqb E t) by (eapply Forall_lookup_1; [apply (pg_good _ _ _ _ _ Hg)|exact Hi]).
  unfold pe in Hin. apply elems_in in Hin as (p & Hp). exists t, p. rewrite Hr. split; [exact Hi|]. split; [exact Hgt|]. split; [exact Hp|].
  rewrite (hfind_ext hash eqb hashQ eqQ E q Hq t _ He). apply (good_find_present hash eqb E HE HK t (fst e) p e Hgt Hp). apply (ko_refl _ _ HK).
Qed.
Lemma ph_absent (ps : ptable) : pgood hash eqb E lg ps -> (forall e, In e (pelems ps) -> eqQ q (fst e) = false) ->
  exists t, ps !! subidx lg (hashQ q) = Some t /\ hfind_key hashQ eqQ E t q = Ok None.
Proof using HE HK.
  intros Hg Ha. destruct (lookup_lt_is_Some_2 ps (subidx lg (hashQ q))) as [t Ht]; [rewrite (pg_len _ _ _ _ _ Hg); apply subidx_lt|].
  exists t. split; [exact Ht|]. apply (hfind_none hash eqb hashQ eqQ E HE HK q t); [eapply Forall_lookup_1; [apply (pg_good _ _ _ _ _ Hg)|exact Ht]|].
  intros e He. apply Ha. apply in_pelems. eauto.
Qed.
End Facts.

(** In every parallel container that a program of C13 can leave: with l the elements of a traversal, at most one element equals q; if one
    does, find(q) gives it, count(q) is 1, erase(q) and extract(q) remove it and nothing else, erase_if(q, f) shows f that element
    and removes it exactly when f says so, and modify_if(q, f) changes its mapped value only; if none does, even when q equals no key
    at all, the calls say so and change nothing.  All of them terminate. *)
Theorem C83_lookup : forall (K V Q : Type) (hash : K -> N) (eqb : K -> K -> bool) (eeq : K * V -> K * V -> bool) (hashQ : Q -> N) (eqQ : Q -> K -> bool)
    (E : env) (lg a b : nat) (os : list (mop K V)) cs ns rs (i : nat) (ps : list (table K V)) (q : Q),
  real_env E -> KeyOK hash eqb -> EltOK eqb eeq -> lg <= 12 -> Forall (pmop_ok E lg a b) os ->
  pm_run hash eqb eeq E lg (replicate a (p_empty lg)) (replicate b None) os = Ok (cs, ns, rs) -> cs !! i = Some ps ->
  matches hash eqb hashQ eqQ q ->
  exists l, p_to_list E ps = Ok l /\
  ((exists e ps' l', In e l /\ eqQ q (fst e) = true /\ (forall e', In e' l -> eqQ q (fst e') = true -> e' = e) /\
     ph_find hashQ eqQ E lg ps q = Ok (Some e) /\ ph_count hashQ eqQ E lg ps q = Ok 1 /\
     ph_erase hashQ eqQ E lg ps q = Ok (ps', 1, Some e) /\ ph_extract hashQ eqQ E lg ps q = Ok (ps', Some e) /\
     p_to_list E ps' = Ok l' /\ Permutation l (e :: l') /\
     (forall f, ph_erase_if hashQ eqQ E lg ps q f = Ok (if f e then (ps', 1, Some e) else (ps, 0, Some e))) /\
     (forall f, exists ps2 l1 l2, ph_modify_if hashQ eqQ E lg ps q f = Ok (ps2, true) /\ l = l1 ++ e :: l2 /\
        p_to_list E ps2 = Ok (l1 ++ (fst e, f e) :: l2))) \/
   ((forall e, In e l -> eqQ q (fst e) = false) /\
     ph_find hashQ eqQ E lg ps q = Ok None /\ ph_count hashQ eqQ E lg ps q = Ok 0 /\
     ph_erase hashQ eqQ E lg ps q = Ok (ps, 0, None) /\ ph_extract hashQ eqQ E lg ps q = Ok (ps, None) /\
     (forall f, ph_erase_if hashQ eqQ E lg ps q f = Ok (ps, 0, None)) /\
     (forall f, ph_modify_if hashQ eqQ E lg ps q f = Ok (ps, false)))).
Proof.
  intros K V Q hash eqb eeq hashQ eqQ E lg a b os cs ns rs i ps q HE0 HK HQ Hlg Ho Hrun Hi Hq. pose proof (real_env_ok E HE0) as HE.
  destruct (pm_run_ok hash eqb E lg HE HK Hlg eeq HQ os (replicate a (p_empty lg)) (replicate b None) (replicate a []))
    as (cs2 & ns2 & rs2 & ms & H1 & _ & HF); [apply pm_start|rewrite !replicate_length; assumption|].
  rewrite Hrun in H1. injection H1 as <- <- <-. destruct (Forall2_lookup_l _ _ _ _ _ HF Hi) as (m & _ & [Hg _]).
  assert (Hl : forall qs : list (table K V), pgood hash eqb E lg qs -> p_to_list E qs = Ok (pelems qs)).
  { intros qs Hqs. apply (p_to_list_ok hash eqb E HE HK); [apply (pg_good _ _ _ _ _ Hqs)|]. rewrite (pg_len _ _ _ _ _ Hqs). apply num_pos. }
  exists (pelems ps). split; [apply Hl; assumption|].
  destruct (List.existsb (fun e => eqQ q (fst e)) (pelems ps)) eqn:Ex.
  - left. apply List.existsb_exists in Ex as (e & Hin & He).
    destruct (ph_place hash eqb hashQ eqQ E lg HE HK q Hq ps e Hg Hin He) as (t & p & Ht & Hgt & Hp & Hf).
    assert (Htv : tinv hash eqb E t) by (destruct Hgt as [->|]; [discriminate|assumption]).
    destruct (erase_at_ok hash eqb E (eo_group E HE) HK t p e Htv Hp) as (t' & Her & Ht' & _ & _ & _ & Hperm).
    assert (Hg' : pgood hash eqb E lg (<[subidx lg (hashQ q) := t']> ps)).
    { eapply pgood_insert; [exact Hg|exact Ht|right; exact Ht'|]. intros x Hx. apply (pg_routed _ _ _ _ _ Hg _ _ _ Ht).
      unfold pe in *. rewrite Hperm. right. exact Hx. }
    destruct (pelems_focus ps _ _ Ht) as (rest & Hr1 & Hr2 & _).
    exists e, (<[subidx lg (hashQ q) := t']> ps), (pelems (<[subidx lg (hashQ q) := t']> ps)).
    split; [exact Hin|]. split; [exact He|]. split.
    { intros e' Hin' He'. assert (Hk : eqb (fst e) (fst e') = true) by (rewrite <- (mq_eq _ _ _ _ _ Hq _ _ He); exact He').
      pose proof (pgood_distinct hash eqb E lg HE HK ps Hg) as Hd.
      pose proof (s_find_in hash eqb HK (pelems ps) (fst e) e Hd Hin (ko_refl _ _ HK _)) as F1.
      pose proof (s_find_in hash eqb HK (pelems ps) (fst e) e' Hd Hin' Hk) as F2. congruence. }
    assert (Heif : forall f, ph_erase_if hashQ eqQ E lg ps q f = Ok (if f e then (<[subidx lg (hashQ q) := t']> ps, 1, Some e) else (ps, 0, Some e))).
    { intros f. unfold ph_erase_if. rewrite (load_some _ _ _ Ht). cbn [rbind]. rewrite Hf. cbn [rbind]. rewrite (deref_at t p e Hp). cbn [rbind].
      destruct (f e); [|reflexivity]. rewrite Her. reflexivity. }
    split; [unfold ph_find; rewrite (load_some _ _ _ Ht); cbn [rbind]; rewrite Hf; cbn [rbind]; rewrite (deref_at t p e Hp); reflexivity|].
    split; [unfold ph_count; rewrite (load_some _ _ _ Ht); cbn [rbind]; unfold hcount_key; rewrite Hf; reflexivity|].
    split; [unfold ph_erase; rewrite Heif; reflexivity|].
    split; [unfold ph_extract; rewrite (load_some _ _ _ Ht); cbn [rbind]; unfold herase_key; rewrite Hf; cbn [rbind]; rewrite Her; reflexivity|].
    split; [apply Hl; exact Hg'|]. split; [rewrite Hr1, Hr2; unfold pe; rewrite Hperm; reflexivity|]. split; [exact Heif|].
    intros f. destruct (assign_ok hash eqb E HE HK t p e (f e) Htv Hp) as (t2 & Has & Ht2 & Hsl & _ & _).
    destruct (elems_split (t_slots t) p e (fst e, f e) Hp) as (x1 & x2 & Hx1 & Hx2).
    destruct (pelems_split ps _ t t2 Ht) as (y1 & y2 & Hy1 & Hy2).
    exists (<[subidx lg (hashQ q) := t2]> ps), (y1 ++ x1), (x2 ++ y2).
    split; [unfold ph_modify_if; rewrite (load_some _ _ _ Ht); cbn [rbind]; rewrite Hf; cbn [rbind]; rewrite (deref_at t p e Hp); cbn [rbind]; rewrite Has; reflexivity|].
    split; [rewrite Hy1; unfold pe; rewrite Hx1, <- !app_assoc; reflexivity|].
    rewrite Hl.
    2:{ eapply pgood_insert; [exact Hg|exact Ht|right; exact Ht2|]. intros x Hx. unfold pe in Hx. rewrite Hsl, Hx2 in Hx.
      apply in_app_or in Hx as [Hx|[<-|Hx]].
      - apply (pg_routed _ _ _ _ _ Hg _ _ _ Ht). unfold pe. rewrite Hx1. apply in_or_app. left. exact Hx.
      - cbn [fst]. apply (pg_routed _ _ _ _ _ Hg _ _ _ Ht). unfold pe. rewrite Hx1. apply in_or_app. right. left. reflexivity.
      - apply (pg_routed _ _ _ _ _ Hg _ _ _ Ht). unfold pe. rewrite Hx1. apply in_or_app. right. right. exact Hx. }
    rewrite Hy2. unfold pe. rewrite Hsl, Hx2, <- !app_assoc. reflexivity.
  - right. assert (Ha : forall e, In e (pelems ps) -> eqQ q (fst e) = false).
    { intros e Hin. destruct (eqQ q (fst e)) eqn:He; [|reflexivity]. rewrite <- Ex. symmetry. apply List.existsb_exists. eauto. }
    destruct (ph_absent hash eqb hashQ eqQ E lg HE HK q ps Hg Ha) as (t & Ht & Hf). split; [exact Ha|].
    unfold ph_find, ph_count, ph_erase, ph_extract, ph_erase_if, ph_modify_if, hcount_key, herase_key. rewrite (load_some _ _ _ Ht). cbn [rbind]. rewrite Hf. cbn [rbind].
    rewrite list_insert_id by exact Ht. repeat split; reflexivity.
Qed.
Print Assumptions C83_lookup.

(** try_emplace(q, v) with a key from which an equal key is constructed does what it does with the constructed key, whose effects
    and answers are those of C13. *)
Theorem C83_try_emplace : forall (K V Q : Type) (hash : K -> N) (eqb : K -> K -> bool) (hashQ : Q -> N) (eqQ : Q -> K -> bool) (E : env) (lg : nat)
    (ps : list (table K V)) (q : Q) (v : V) (mk : Q -> K),
  matches hash eqb hashQ eqQ q -> eqQ q (mk q) = true ->
  ph_try_emplace hash hashQ eqQ E lg mk ps q v = p_exec hash eqb E lg ps (OEmplace (mk q) v).
Proof.
  intros K V Q hash eqb hashQ eqQ E lg ps q v mk Hq Hk. unfold ph_try_emplace, p_exec, on_key, exec. rewrite (mq_hash _ _ _ _ _ Hq _ Hk).
  destruct (load _ _) as [t| | | |]; cbn [rbind]; try reflexivity. rewrite (htry_emplace_ext hash eqb hashQ eqQ E q Hq t mk v Hk). reflexivity.
Qed.
Print Assumptions C83_try_emplace.

(** The transparent hash has to agree with the hash of the keys on the bits that choose the submap too: q and the key 3 hash to the same
    first place and the same control byte of a table, and one table finds 3, but the parallel container looks in another submap. *)
Theorem C83_hashes_must_agree : exists (os : list (op N N)) t rs ps rs' (hashQ : N -> N),
  Forall (op_ok ex_env) os /\ run exp_hash N.eqb ex_env empty_table os = Ok (t, rs) /\ p_run exp_hash N.eqb ex_env 2 (p_empty 2) os = Ok (ps, rs') /\
  hcount_key hashQ N.eqb ex_env t 3%N = Ok 1 /\ ph_count exp_hash N.eqb ex_env 2 ps 3%N = Ok 1 /\ ph_count hashQ N.eqb ex_env 2 ps 3%N = Ok 0.
Proof.
  exists (ins (nums 0 5)). do 4 eexists. exists (fun k => exp_hash k + 2 ^ 16)%N. split; [repeat constructor|]. split; [vm_compute; reflexivity|]. split; [vm_compute; reflexivity|].
  split; [vm_compute; reflexivity|]. split; vm_compute; reflexivity.
Qed.
Print Assumptions C83_hashes_must_agree.

(** characters '0'..'9' for the numbers 0..9 *)
Definition exc_hash (c : Z) : N := exp_hash (Z.to_N (c - 48)).
Example C83_example : (forall c, matches exp_hash N.eqb exc_hash char_eq c) /\
  Forall (pmop_ok ex_env 2 1 0) (map (MOne 0) (ins (nums 0 6))) /\
  match pm_run exp_hash N.eqb ex_eeq ex_env 2 [p_empty 2] [] (map (MOne 0) (ins (nums 0 6))) with
  | Ok ([ps], _, _) =>
      Some (ph_find exc_hash char_eq ex_env 2 ps 51%Z, ph_find exc_hash char_eq ex_env 2 ps 57%Z, ph_find exc_hash char_eq ex_env 2 ps 7%Z,
            match ph_erase exc_hash char_eq ex_env 2 ps 51%Z with Ok (ps', n, _) => Some (n, p_size ps, p_size ps') | _ => None end,
            match ph_modify_if exc_hash char_eq ex_env 2 ps 51%Z (fun e => snd e + 30)%N with Ok (ps', b) => Some (b, ph_find exc_hash char_eq ex_env 2 ps' 51%Z) | _ => None end)
  | _ => None
  end = Some (Ok (Some (3, 3)%N), Ok None, Ok None, Some (1, 6, 5), Some (true, Ok (Some (3, 33)%N))).
Proof.
  split; [|split; [|vm_compute; reflexivity]].
  - intros c. unfold exc_hash, char_eq. split.
    + intros a b Ha. apply Z.eqb_eq in Ha. destruct (N.eqb_spec a b); [subst; apply Z.eqb_eq; lia|apply Z.eqb_neq; lia].
    + intros a Ha. apply Z.eqb_eq in Ha. f_equal. lia.
  - apply Forall_forall. intros o Ho. apply elem_of_list_fmap in Ho. destruct Ho as (x & -> & Hx).
    apply elem_of_list_fmap in Hx. destruct Hx as (k & -> & _). cbn. split; [lia|exact I].
Qed.
