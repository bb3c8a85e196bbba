(** C84: equal_range of the hash containers, single and parallel, with a key of the container or of another type. *)
From stdpp Require Import list list_numbers.
From Coq Require Import Arith NArith ZArith Lia.
From Coq Require Import ZifyBool ZifyNat ZifyN.
From Verif.Common Require Import Res Word.
From Verif.Swiss Require Import Group GroupSpec GroupProof Model Probe ProbeProof Inv TableInv Resize Ops MapSpec History Multi MultiSpec MultiProof MultiHistory PropsTable PropsMulti HFind PropsHFind.
From Verif.Par Require Import Seq SeqSpec SeqProof PropsSeq PropsHSeq.
Local Open Scope nat_scope.
Local Open Scope res_scope.

Section Model.
Context {K V Q : Type} (hashQ : Q -> N) (eqQ : Q -> K -> bool) (E : env) (lg : nat).
Notation table := (table K V).
Notation ptable := (list table).
Notation elt := (K * V)%type.
(* equal_range (phmap.hpp 2436-2449): find(key) and std::next of it; end() is the slot number t_cap *)
Definition equal_range (t : table) (q : Q) : res (nat * nat) :=
  let* r := hfind_key hashQ eqQ E t q in
  match r with
  | Some p => let* j := next_it E t p in Ok (p, j)
  | None => Ok (t_cap t, t_cap t)
  end.
(* for (auto it = r.first; it != r.second; ++it): the elements visited, by a caller *)
Fixpoint walk (fuel : nat) (t : table) (i j : nat) : res (list elt) :=
  if i =? j then Ok []
  else match fuel with
  | O => Loop
  | S f => let* e := deref t i in let* i' := next_it E t i in let* l := walk f t i' j in Ok (e :: l)
  end.
(* equal_range of the parallel containers (4234-4249); find (4388-4394) with make_iterator (3812-3816) *)
Definition p_equal_range (ps : ptable) (q : Q) : res (pit * pit) :=
  let i := subidx lg (hashQ q) in
  let* t := load ps i in
  let* r := hfind_key hashQ eqQ E t q in
  match r with
  | Some p => let* it := p_next E ps (i, p) in Ok (Some (i, p), it)
  | None => Ok (None, None)
  end.
(* operator== of iterators (3326-3328) *)
Definition pit_eqb (a b : pit) : bool :=
  match a, b with
  | Some (i, p), Some (j, r) => (i =? j) && (p =? r)
  | None, None => true
  | _, _ => false
  end.
(* the same loop over parallel iterators; incrementing end() is undefined *)
Fixpoint p_walk (fuel : nat) (ps : ptable) (a b : pit) : res (list elt) :=
  if pit_eqb a b then Ok []
  else match fuel with
  | O => Loop
  | S f =>
      match a with
      | None => UB
      | Some x => let* e := p_deref ps x in let* a' := p_next E ps x in let* l := p_walk f ps a' b in Ok (e :: l)
      end
  end.
End Model.

(** the elements that equal q, when the keys are distinct *)
Lemma filter_one {K V Q} (hash : K -> N) (eqb : K -> K -> bool) (hashQ : Q -> N) (eqQ : Q -> K -> bool) (q : Q) (l : list (K * V)) e :
  matches hash eqb hashQ eqQ q -> (forall a b, eqb a b = eqb b a) -> distinct eqb l -> In e l -> eqQ q (fst e) = true ->
  List.filter (fun x => eqQ q (fst x)) l = [e].
Proof.
  intros Hq Hs. induction l as [|x l IH]; [intros _ []|]. intros [Hx Hd] Hin He. cbn [List.filter]. destruct Hin as [->|Hin].
  - rewrite He. f_equal. clear IH Hd. induction l as [|y l IH]; [reflexivity|]. cbn [List.filter].
    rewrite (mq_eq _ _ _ _ _ Hq _ _ He), (Hx y (or_introl eq_refl)). apply IH. intros z Hz. apply Hx. right. exact Hz.
  - destruct (eqQ q (fst x)) eqn:Ex; [|apply IH; assumption]. rewrite (mq_eq _ _ _ _ _ Hq _ _ Ex), (Hx e Hin) in He. discriminate.
Qed.
Lemma filter_nil {A} (f : A -> bool) l : (forall x, In x l -> f x = false) -> List.filter f l = [].
Proof. induction l as [|x l IH]; intros H; [reflexivity|]. cbn. rewrite H by (left; reflexivity). apply IH. intros y Hy. apply H. right. exact Hy. Qed.
Lemma p_skip_later {K V} (E : env) f : forall (ps : list (table K V)) i j i' j', p_skip E f ps i j = Ok (Some (i', j')) -> (i' = i /\ j' = j) \/ i < i'.
Proof.
  induction f as [|f IH]; intros ps i j i' j' H; [discriminate|]. cbn [p_skip] in H. destruct (load ps i) as [t| | | |]; cbn [rbind] in H; try discriminate.
  destruct (j =? t_cap t); [|left; split; congruence]. destruct (S i =? length ps); [discriminate|].
  destruct (load ps (S i)) as [t'| | | |]; cbn [rbind] in H; try discriminate. destruct (begin_it E t') as [k| | | |]; cbn [rbind] in H; try discriminate.
  destruct (IH _ _ _ _ _ H) as [[-> _]|?]; right; lia.
Qed.

(** In every table that a program can reach, the loop over equal_range(q) visits exactly the elements of a traversal that equal q
    (one or none), and stops. *)
Theorem C84_equal_range : forall (K V Q : Type) (hash : K -> N) (eqb : K -> K -> bool) (hashQ : Q -> N) (eqQ : Q -> K -> bool) (E : env) (t : table K V) (q : Q),
  real_env E -> KeyOK hash eqb -> matches hash eqb hashQ eqQ q -> reachable hash eqb E t ->
  exists l a b, to_list E t = Ok l /\ equal_range hashQ eqQ E t q = Ok (a, b) /\
    walk E 1 t a b = Ok (List.filter (fun e => eqQ q (fst e)) l) /\
    ((forall e, In e l -> eqQ q (fst e) = false) -> a = t_cap t).
Proof.
  intros K V Q hash eqb hashQ eqQ E t q HR HK Hq Ht. pose proof (real_env_ok E HR) as HE. pose proof (reachable_good hash eqb E HE HK t Ht) as Hg.
  destruct (iterate_ok hash eqb E HE HK t Hg) as (is & _ & Hl & _). exists (elems (t_slots t)).
  destruct (hpresent_or_absent eqQ q t) as [(i & e & Hs & He)|Ha].
  - assert (Htv : tinv hash eqb E t) by (destruct Hg as [->|]; [discriminate|assumption]).
    assert (Hi : i < t_cap t) by (rewrite <- (ti_slen _ _ _ _ (tv_0 _ _ _ _ Htv)); apply lookup_lt_Some in Hs; exact Hs).
    destruct (next_ok hash eqb E HE HK t i Htv Hi) as (j & Hj & Hr & _). exists i, j. split; [exact Hl|].
    assert (Hf : hfind_key hashQ eqQ E t q = Ok (Some i)) by (rewrite (hfind_ext hash eqb hashQ eqQ E q Hq t _ He); apply (good_find_present hash eqb E HE HK t (fst e) i e Hg Hs (ko_refl _ _ HK _))).
    assert (Hin : In e (elems (t_slots t))) by (apply elems_in; eauto).
    split; [unfold equal_range; rewrite Hf; cbn [rbind]; rewrite Hj; reflexivity|]. split.
    + cbn [walk]. destruct (Nat.eqb_spec i j); [lia|]. rewrite (deref_at t i e Hs). cbn [rbind]. rewrite Hj. cbn [rbind]. rewrite Nat.eqb_refl. cbn [rbind].
      rewrite (filter_one hash eqb hashQ eqQ q _ e Hq (ko_sym _ _ HK) (good_dist hash eqb E t Hg) Hin He). reflexivity.
    + intros Hno. rewrite (Hno e Hin) in He. discriminate.
  - exists (t_cap t), (t_cap t). split; [exact Hl|]. split; [unfold equal_range; rewrite (hfind_none hash eqb hashQ eqQ E HE HK q t Hg Ha); reflexivity|].
    split; [|reflexivity]. cbn [walk]. rewrite Nat.eqb_refl. rewrite (filter_nil _ _ Ha). reflexivity.
Qed.
Print Assumptions C84_equal_range.

(** The same for parallel containers, where the second iterator may be in another submap. *)
Theorem C84_parallel : forall (K V Q : Type) (hash : K -> N) (eqb : K -> K -> bool) (eeq : K * V -> K * V -> bool) (hashQ : Q -> N) (eqQ : Q -> K -> bool)
    (E : env) (lg a b : nat) (os : list (mop K V)) cs ns rs (i : nat) (ps : list (table K V)) (q : Q),
  real_env E -> KeyOK hash eqb -> EltOK eqb eeq -> lg <= 12 -> Forall (pmop_ok E lg a b) os ->
  pm_run hash eqb eeq E lg (replicate a (p_empty lg)) (replicate b None) os = Ok (cs, ns, rs) -> cs !! i = Some ps ->
  matches hash eqb hashQ eqQ q ->
  exists l x y, p_to_list E ps = Ok l /\ p_equal_range hashQ eqQ E lg ps q = Ok (x, y) /\
    p_walk E 1 ps x y = Ok (List.filter (fun e => eqQ q (fst e)) l) /\
    ((forall e, In e l -> eqQ q (fst e) = false) -> x = None).
Proof.
  intros K V Q hash eqb eeq hashQ eqQ E lg a b os cs ns rs i ps q HE0 HK HQ Hlg Ho Hrun Hi Hq. pose proof (real_env_ok E HE0) as HE.
  destruct (pm_run_ok hash eqb E lg HE HK Hlg eeq HQ os (replicate a (p_empty lg)) (replicate b None) (replicate a []))
    as (cs2 & ns2 & rs2 & ms & H1 & _ & HF); [apply pm_start|rewrite !replicate_length; assumption|].
  rewrite Hrun in H1. injection H1 as <- <- <-. destruct (Forall2_lookup_l _ _ _ _ _ HF Hi) as (m & _ & [Hg _]).
  assert (Hl : p_to_list E ps = Ok (pelems ps)).
  { apply (p_to_list_ok hash eqb E HE HK); [apply (pg_good _ _ _ _ _ Hg)|]. rewrite (pg_len _ _ _ _ _ Hg). apply num_pos. }
  exists (pelems ps). destruct (List.existsb (fun e => eqQ q (fst e)) (pelems ps)) eqn:Ex.
  - apply List.existsb_exists in Ex as (e & Hin & He).
    destruct (ph_place hash eqb hashQ eqQ E lg HE HK q Hq ps e Hg Hin He) as (t & p & Ht & Hgt & Hp & Hf).
    assert (Htv : tinv hash eqb E t) by (destruct Hgt as [->|]; [discriminate|assumption]).
    assert (Hpc : p < t_cap t) by (rewrite <- (ti_slen _ _ _ _ (tv_0 _ _ _ _ Htv)); apply lookup_lt_Some in Hp; exact Hp).
    destruct (next_ok hash eqb E HE HK t p Htv Hpc) as (j & Hj & Hr & Hs & _).
    assert (Hn : exists y, p_next E ps (subidx lg (hashQ q), p) = Ok y /\ pit_eqb (Some (subidx lg (hashQ q), p)) y = false).
    { unfold p_next. rewrite (load_some _ _ _ Ht). cbn [rbind]. rewrite Hj. cbn [rbind].
      destruct (p_skip_ok hash eqb E HE HK (length ps) ps _ j t (pg_good _ _ _ _ _ Hg) Ht) as [[Hk _]|(i' & j' & _ & _ & Hk & _)]; [split; [lia|exact Hs]|lia| |].
      - exists None. split; [exact Hk|reflexivity].
      - exists (Some (i', j')). split; [exact Hk|]. cbn [pit_eqb]. destruct (p_skip_later E _ _ _ _ _ _ Hk) as [[-> ->]|Hlt].
        + rewrite Nat.eqb_refl. cbn. apply Nat.eqb_neq. lia.
        + destruct (Nat.eqb_spec (subidx lg (hashQ q)) i'); [lia|reflexivity]. }
    destruct Hn as (y & Hy & Hne). exists (Some (subidx lg (hashQ q), p)), y. split; [exact Hl|].
    split; [unfold p_equal_range; rewrite (load_some _ _ _ Ht); cbn [rbind]; rewrite Hf; cbn [rbind]; rewrite Hy; reflexivity|]. split.
    + cbn [p_walk]. rewrite Hne. unfold p_deref. cbn [fst snd]. rewrite (load_some _ _ _ Ht). cbn [rbind]. rewrite (deref_at t p e Hp). cbn [rbind]. rewrite Hy. cbn [rbind].
      assert (Hyy : pit_eqb y y = true) by (destruct y as [[? ?]|]; cbn [pit_eqb]; rewrite ?Nat.eqb_refl; reflexivity). rewrite Hyy. cbn [rbind].
      rewrite (filter_one hash eqb hashQ eqQ q _ e Hq (ko_sym _ _ HK) (pgood_distinct hash eqb E lg HE HK ps Hg) Hin He). reflexivity.
    + intros Hno. rewrite (Hno e Hin) in He. discriminate.
  - assert (Ha : forall e, In e (pelems ps) -> eqQ q (fst e) = false).
    { intros e Hin. destruct (eqQ q (fst e)) eqn:He; [|reflexivity]. rewrite <- Ex. symmetry. apply List.existsb_exists. eauto. }
    destruct (ph_absent hash eqb hashQ eqQ E lg HE HK q ps Hg Ha) as (t & Ht & Hf). exists None, None. split; [exact Hl|].
    split; [unfold p_equal_range; rewrite (load_some _ _ _ Ht); cbn [rbind]; rewrite Hf; reflexivity|]. split; [|reflexivity].
    cbn [p_walk pit_eqb]. rewrite (filter_nil _ _ Ha). reflexivity.
Qed.
Print Assumptions C84_parallel.

(** 4 is the last element of its submap in the parallel container, so the range ends in the next submap; 9 is in neither container *)
Example C84_example : matches exp_hash N.eqb exp_hash N.eqb 4%N /\
  match run exp_hash N.eqb ex_env empty_table (ins (nums 0 6)), pm_run exp_hash N.eqb ex_eeq ex_env 2 [p_empty 2] [] (map (MOne 0) (ins (nums 0 6))) with
  | Ok (t, _), Ok ([ps], _, _) =>
      Some (equal_range exp_hash N.eqb ex_env t 4%N, equal_range exp_hash N.eqb ex_env t 9%N,
            p_equal_range exp_hash N.eqb ex_env 2 ps 4%N, p_equal_range exp_hash N.eqb ex_env 2 ps 9%N,
            match p_equal_range exp_hash N.eqb ex_env 2 ps 4%N with Ok (x, y) => p_walk ex_env 1 ps x y | _ => UB end)
  | _, _ => None
  end = Some (Ok (1, 2), Ok (7, 7), Ok (Some (0, 1), Some (1, 0)), Ok (None, None), Ok [(4, 4)%N]).
Proof.
  split; [split; [intros x y Hx; apply N.eqb_eq in Hx; subst; reflexivity|intros x Hx; apply N.eqb_eq in Hx; subst; reflexivity]|].
  vm_compute. reflexivity.
Qed.
