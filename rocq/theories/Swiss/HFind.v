(** Lookups with a key of another type in the hash containers: the members of raw_hash_set and raw_hash_map that take a key_arg<K>
    (phmap.hpp 1531-1540), when the hash function and the equality are transparent.  [hashQ q] is hash()(q), [eqQ q k] is eq()(k, q). *)
From Coq Require Import ZArith NArith List Bool Arith Lia Permutation.
From stdpp Require Import list.
From Verif.Common Require Import Word Res.
From Verif.Swiss Require Import Group GroupSpec GroupProof Model Probe ProbeProof Inv TableInv Resize Ops MapSpec History.
Import ListNotations.
Local Open Scope nat_scope.
Local Open Scope res_scope.

Section HModel.
Context {K V Q : Type} (hash : K -> N) (eqb : K -> K -> bool) (hashQ : Q -> N) (eqQ : Q -> K -> bool) (E : env).
Notation table := (table K V).
Notation elt := (K * V)%type.
Notation g := (e_group E).
(* the inner loop of find_impl and _find_key (2500-2505, 2847-2851) *)
Fixpoint hmatch_loop (t : table) (q : Q) (off : nat) (is : list nat) : res (option nat) :=
  match is with
  | [] => Ok None
  | i :: is' =>
      let p := probe_at (t_cap t) off i in
      let* s := load (t_slots t) p in
      let* e := of_option s in
      if eqQ q (fst e) then Ok (Some p) else hmatch_loop t q off is'
  end.
(* find_impl (2491-2510), _find_key (2838-2857) *)
Fixpoint hfind_loop (fuel : nat) (t : table) (q : Q) (h : N) (off idx : nat) : res (option nat) :=
  match fuel with
  | O => Loop
  | S f =>
      let* w := window E (t_ctrl t) off in
      let* r := hmatch_loop t q off (g_match g w (H2 h)) in
      match r with
      | Some p => Ok (Some p)
      | None =>
          if g_any_empty g w then Ok None
          else let '(off', idx') := probe_next E (t_cap t) off idx in
               hfind_loop f t q h off' idx'
      end
  end.
(* find(key) (2413-2416), count and contains (2367-2370, 2427-2430) *)
Definition hfind_key (t : table) (q : Q) : res (option nat) := hfind_loop (S (t_cap t)) t q (hashQ q) (probe_start (hashQ q) (t_cap t)) 0.
Definition hcount_key (t : table) (q : Q) : res nat := let* r := hfind_key t q in Ok (match r with Some _ => 1 | None => 0 end).
(* erase(key) (2232-2238), extract(key) (2305-2308) *)
Definition herase_key (t : table) (q : Q) : res (option elt * table) :=
  let* r := hfind_key t q in
  match r with
  | None => Ok (None, t)
  | Some p => let* (e, t') := erase_at E t p in Ok (Some e, t')
  end.
(* try_emplace(key, args) (3153-3167): the place is chosen with the hash of q, then the key is constructed from q ([mk q]);
   operator[] (3129-3137) and insert_or_assign (3139-3151) use it in the same way *)
Context (mk : Q -> K).
Definition htry_emplace (t : table) (q : Q) (v : V) : res (table * nat * bool) :=
  let* r := hfind_key t q in
  match r with
  | Some p => Ok (t, p, false)
  | None =>
      let* (t1, p) := prepare_insert hash E t (hashQ q) in
      let* slots' := construct (t_slots t1) p (mk q, v) in
      let* ctrl' := set_ctrl E (t_ctrl t1) (t_cap t1) p (H2 (hashQ q)) in
      Ok (mkTable ctrl' slots' (t_size t1) (t_cap t1) (t_growth t1), p, true)
  end.
End HModel.

(** what transparent functors have to do with q: it is equal to the keys of one class or of none, and hashes like them *)
Record matches {K Q} (hash : K -> N) (eqb : K -> K -> bool) (hashQ : Q -> N) (eqQ : Q -> K -> bool) (q : Q) : Prop := {
  mq_eq : forall a b, eqQ q a = true -> eqQ q b = eqb a b;
  mq_hash : forall a, eqQ q a = true -> hashQ q = hash a;
}.

Section HFacts.
Context {K V Q : Type} (hash : K -> N) (eqb : K -> K -> bool) (hashQ : Q -> N) (eqQ : Q -> K -> bool) (E : env).
Context (HE : env_ok E) (HK : KeyOK hash eqb) (q : Q) (Hq : matches hash eqb hashQ eqQ q).
Notation table := (table K V).
Notation g := (e_group E).
Notation W := (g_width (e_group E)).
Notation HG := (eo_group E HE).

(** with a key that equals q, the calls are the same *)
Lemma hmatch_ext (t : table) a off is : (forall b, eqQ q b = eqb a b) -> hmatch_loop eqQ t q off is = match_loop eqb t a off is.
Proof using.
  intros He. induction is as [|i is IH]; [reflexivity|]. cbn [hmatch_loop match_loop]. destruct (load _ _) as [s| | | |]; cbn [rbind]; try reflexivity.
  destruct (of_option s) as [e| | | |]; cbn [rbind]; try reflexivity. rewrite He, IH. reflexivity.
Qed.
Lemma hfind_ext (t : table) a : eqQ q a = true -> hfind_key hashQ eqQ E t q = find_key hash eqb E t a.
Proof using Hq.
  intros Ha. unfold hfind_key, find_key, find_fuel. rewrite (mq_hash _ _ _ _ _ Hq a Ha). generalize (S (t_cap t)) as fuel. generalize (probe_start (hash a) (t_cap t)) as off. generalize 0 as idx.
  intros idx off fuel. revert idx off. induction fuel as [|f IH]; intros idx off; [reflexivity|]. cbn [hfind_loop find_loop].
  destruct (window E (t_ctrl t) off) as [w| | | |]; cbn [rbind]; try reflexivity. rewrite (hmatch_ext t a) by (intros b; apply (mq_eq _ _ _ _ _ Hq a b Ha)).
  destruct (match_loop _ _ _ _ _) as [[p|]| | | |]; cbn [rbind]; try reflexivity. destruct (g_any_empty g w); [reflexivity|].
  destruct (probe_next E (t_cap t) off idx). apply IH.
Qed.
Lemma herase_ext (t : table) a : eqQ q a = true -> herase_key hashQ eqQ E t q = erase_key hash eqb E t a.
Proof using Hq. intros Ha. unfold herase_key, erase_key. rewrite (hfind_ext t a Ha). reflexivity. Qed.
Lemma htry_emplace_ext (t : table) mk v : eqQ q (mk q) = true -> htry_emplace hash hashQ eqQ E mk t q v = emplace hash eqb E t (mk q) v.
Proof using Hq.
  intros Ha. unfold htry_emplace, emplace. rewrite (hfind_ext t _ Ha). destruct (find_key _ _ _ _ _) as [[p|]| | | |]; cbn [rbind]; try reflexivity.
  rewrite (mq_hash _ _ _ _ _ Hq _ Ha). destruct (prepare_insert _ _ _ _) as [[t1 p]| | | |]; cbn [rbind]; try reflexivity.
  unfold finish_insert. cbn [fst]. destruct (construct _ _ _) as [sl| | | |]; cbn [rbind]; try reflexivity.
  destruct (set_ctrl _ _ _ _ _) as [c| | | |]; reflexivity.
Qed.
(** when no element equals q *)
Lemma hmatch_none (t : table) o is : tinv0 hash eqb E t -> o <= t_cap t -> (forall e, In e (elems (t_slots t)) -> eqQ q (fst e) = false) ->
  (forall d, In d is -> d < W /\ exists c, t_ctrl t !! (o + d) = Some c /\ (0 <= c)%Z) -> hmatch_loop eqQ t q o is = Ok None.
Proof using HE HK.
  intros Ht Ho Ha. induction is as [|d is IH]; intros Hin; cbn [hmatch_loop]; [reflexivity|].
  destruct (Hin d (or_introl eq_refl)) as (Hd & c & Hc & H0).
  rewrite probe_at_mod by apply (wfc_cap _ _ _ (ti_wfc _ _ _ _ Ht)).
  set (p := (o + d) mod S (t_cap t)).
  assert (Hp : p < S (t_cap t)) by (apply Nat.mod_upper_bound; lia).
  assert (Hcp : t_ctrl t !! p = Some c).
  { destruct (byte_cases E HG _ _ o d (ti_wfc _ _ _ _ Ht) Ho Hd) as [[_ Hb]|(_ & _ & Hb)].
    - fold p in Hb. congruence.
    - rewrite Hb in Hc. injection Hc as <-. unfold kEmpty in H0. lia. }
  assert (Hpc : p < t_cap t).
  { destruct (Nat.eq_dec p (t_cap t)) as [He|]; [|lia]. rewrite He, (wfc_sent _ _ _ (ti_wfc _ _ _ _ Ht)) in Hcp.
    injection Hcp as <-. unfold kSentinel in H0. lia. }
  destruct (slot_full hash eqb E HG HK t p c Ht Hpc Hcp H0) as (e & Hs & _).
  rewrite (load_some _ _ _ Hs). cbn [rbind of_option]. rewrite Ha by (apply elems_in; eauto). apply IH. intros d' Hd'. apply Hin. right. assumption.
Qed.
Lemma hfind_loop_none (t : table) h nstar : tinv0 hash eqb E t -> (forall e, In e (elems (t_slots t)) -> eqQ q (fst e) = false) ->
  ~ nempty E (t_ctrl t) (t_cap t) (poffh E (t_cap t) h nstar) ->
  forall fuel n, n <= nstar -> nstar - n < fuel ->
  hfind_loop eqQ E fuel t q h (poffh E (t_cap t) h n) (n * W) = Ok None.
Proof using HE HK.
  intros Ht Hk Hns. pose proof (ti_wfc _ _ _ _ Ht) as Hwf.
  induction fuel as [|f IH]; intros n Hn Hf; [lia|]. cbn [hfind_loop].
  set (o := poffh E (t_cap t) h n) in *. assert (Ho : o <= t_cap t) by apply poffh_le.
  destruct (window_ok E HG _ _ _ Hwf Ho) as (w & Hw & Hl & Hv & Hb). rewrite Hw. cbn [rbind].
  rewrite (hmatch_none t o (g_match g w (H2 h)) Ht Ho Hk).
  2:{ intros d Hd. destruct (gok_match_sound _ HG w _ d Hl Hv (H2_range _) Hd) as (c & Hc & H0).
    assert (Hdl : d < W) by (apply lookup_lt_Some in Hc; lia). split; [assumption|].
    exists c. rewrite <- Hb by assumption. split; assumption. }
  cbn [rbind]. destruct (g_any_empty g w) eqn:Hae; [reflexivity|].
  unfold o. rewrite (probe_next_off E _ _ _ (wfc_cap _ _ _ Hwf)).
  destruct (Nat.eq_dec n nstar) as [->|]; [|apply IH; lia].
  exfalso. apply Hns. apply (any_empty_nempty E HG _ _ _ _ Hwf Ho Hw). assumption.
Qed.
Lemma hfind_none (t : table) : good hash eqb E t -> (forall e, In e (elems (t_slots t)) -> eqQ q (fst e) = false) -> hfind_key hashQ eqQ E t q = Ok None.
Proof using HE HK.
  intros [->|Ht] Ha.
  { unfold hfind_key. pose proof (find_empty (K:=Q) (V:=V) hashQ (fun _ _ => false) E HE q) as Hf. unfold find_key, find_fuel in Hf. cbn [t_cap empty_table find_loop hfind_loop t_ctrl] in *.
    destruct (window E _ _) as [w| | | |]; cbn [rbind] in *; try discriminate.
    destruct (g_match g w (H2 (hashQ q))) as [|d is]; cbn [match_loop hmatch_loop rbind] in *; [|unfold load in Hf; cbn [t_slots empty_table] in Hf; rewrite lookup_nil in Hf; discriminate].
    destruct (g_any_empty g w); [reflexivity|discriminate]. }
  pose proof (tv_0 _ _ _ _ Ht) as Ht0. pose proof (ti_wfc _ _ _ _ Ht0) as Hwf. pose proof (wfc_cap _ _ _ Hwf) as Hcap.
  unfold hfind_key. rewrite (poffh_0 E _ _ Hcap).
  assert (Hex : exists nstar, nstar <= t_cap t /\ ~ nempty E (t_ctrl t) (t_cap t) (poffh E (t_cap t) (hashQ q) nstar)).
  { destruct (tinv_has_empty hash eqb E HE HK t Ht) as [Hs|(i & Hi & He)].
    - exists 0. split; [lia|]. intros [H _]. lia.
    - destruct (cover_ex E HG (t_cap t) (probe_start (hashQ q) (t_cap t)) i Hcap) as (n & Hn & (d & Hd & HdM & Hmod) & _).
      + rewrite (poffh_0 E) by assumption. apply poffh_le.
      + lia.
      + exists n. split; [assumption|]. intros [_ Hne]. apply (Hne d Hd). unfold poffh. rewrite Hmod. assumption. }
  destruct Hex as (ns & Hns & Hnn). apply (hfind_loop_none t (hashQ q) ns Ht0 Ha Hnn (S (t_cap t)) 0); lia.
Qed.
Lemma hpresent_or_absent (t : table) : (exists i e, t_slots t !! i = Some (Some e) /\ eqQ q (fst e) = true) \/ (forall e, In e (elems (t_slots t)) -> eqQ q (fst e) = false).
Proof using.
  destruct (List.existsb (fun e => eqQ q (fst e)) (elems (t_slots t))) eqn:Ex.
  - left. apply List.existsb_exists in Ex as (e & Hin & He). apply elems_in in Hin as (i & Hi). eauto.
  - right. intros e Hin. destruct (eqQ q (fst e)) eqn:Ee; [|reflexivity]. rewrite <- Ex. symmetry. apply List.existsb_exists. eauto.
Qed.
End HFacts.
