(** Property theorem C63: node_hash_map / node_hash_set. *)
From stdpp Require Import list list_numbers.
From Coq Require Import NArith ZArith Lia ZifyBool ZifyNat.
From Verif.Common Require Import Res Word.
From Verif.Swiss Require Import Group GroupSpec Model Probe Inv TableInv Resize Ops MapSpec History Reserve PropsTable.
From Verif.Swiss Require Import Multi MultiSpec MultiProof MultiHistory PropsMulti Node NodeSpec NodeProof NodeFacts NodeRun.
Local Open Scope nat_scope.
Local Open Scope res_scope.

(** the state after a program that starts with [a] empty containers and [b] empty node handles *)
Definition nreach {K V} hash eqb eeq E (a b : nat) (os : list (nop K V)) rs s : Prop :=
  Forall (nop_ok E a b) os /\ nrun hash eqb eeq E (nstart a b) os = Ok (s, rs).

Section Inv.
Context {K V : Type} (hash : K -> N) (eqb : K -> K -> bool) (eeq : K * V -> K * V -> bool) (E : env) (a b : nat).
Context (HE : real_env E) (HK : KeyOK hash eqb) (HQ : EltOK eqb eeq).
Lemma nreach_inv os rs s : nreach hash eqb eeq E a b os rs s -> exists ms L, inv hash eqb E a b s ms L /\ length L = lost os rs.
Proof using HE HK HQ.
  intros [Ho Hr]. destruct (nrun_start hash eqb eeq E (real_env_ok E HE) HK HQ a b os Ho) as (s1 & rs1 & ms & L & cs & cns & H1 & H2 & H3 & _).
  rewrite Hr in H1. injection H1 as <- <-. eauto.
Qed.
End Inv.

(** C63, contents: every program over node containers and node handles runs to completion - in particular no node is
    read, written or deleted that is not alive - and its answers, without the addresses, are those of the same program
    on ideal finite maps, as for flat containers (C10, C11, C49). *)
Theorem C63_contents : forall (K V : Type) (hash : K -> N) (eqb : K -> K -> bool) (eeq : K * V -> K * V -> bool)
    (E : env) (a b : nat) (os : list (nop K V)),
  real_env E -> KeyOK hash eqb -> EltOK eqb eeq -> Forall (nop_ok E a b) os ->
  exists s rs st, nrun hash eqb eeq E (nstart a b) os = Ok (s, rs) /\
    s_mrun eqb eeq (replicate a [], replicate b None) (map flat os) (map plain rs) st.
Proof.
  intros K V hash eqb eeq E a b os HE HK HQ Ho.
  destruct (nrun_start hash eqb eeq E (real_env_ok E HE) HK HQ a b os Ho) as (s & rs & ms & L & cs & cns & H1 & _ & _ & _ & _ & H6).
  exists s, rs, (cs, cns). auto.
Qed.
Print Assumptions C63_contents.

(** C63, addresses: after any program, a call changes neither the address nor the value of an element, except that
    insert_or_assign of its key changes its value.  [goes] says where the element is afterwards: at the same place
    whatever is inserted, and however often the table grows or is rehashed; in the other container after swap, move
    assignment, merge; in the handle after extract, back in a container after insert(node).  If the call erases the
    element, its node is given back. *)
Theorem C63_addresses : forall (K V : Type) (hash : K -> N) (eqb : K -> K -> bool) (eeq : K * V -> K * V -> bool)
    (E : env) (a b : nat) (os : list (nop K V)) rs s (o : nop K V),
  real_env E -> KeyOK hash eqb -> EltOK eqb eeq -> nreach hash eqb eeq E a b os rs s -> nop_ok E a b o ->
  exists s' r, nexec hash eqb eeq E s o = Ok (s', r) /\
    forall pl c e, at_place hash eqb eeq E s pl c e -> exists pl', goes eqb o e r pl pl' /\
      match pl' with
      | Some q => at_place hash eqb eeq E s' q c (becomes eqb o e pl)
      | None => heap_of s' !! c = Some Freed
      end.
Proof.
  intros K V hash eqb eeq E a b os rs s o HE HK HQ Hr Ho.
  destruct (nreach_inv hash eqb eeq E a b HE HK HQ os rs s Hr) as (ms & L & Hi & _).
  destruct (inv_step hash eqb eeq E (real_env_ok E HE) HK HQ a b s ms L o Hi Ho) as (s' & r & ms' & L' & He & Hi' & Hp).
  exists s', r. split; [assumption|]. intros pl c e Hat.
  apply (at_place_iff hash eqb eeq E (real_env_ok E HE) HK HQ a b s ms L pl c e Hi) in Hat. destruct Hat as [Hat Hlv].
  destruct (p_step_goes hash eqb eeq HK ms (snd (fst s)) (heap_of s) L o r ms' (snd (fst s')) (heap_of s') L' pl (fst e, c) e) as (pl' & Hg & Hq).
  - apply (iv_heap _ _ _ _ _ _ _ _ Hi).
  - apply (iv_heap _ _ _ _ _ _ _ _ Hi').
  - eapply (inv_distinct hash eqb E (real_env_ok E HE) HK). eassumption.
  - assumption.
  - rewrite <- (Forall2_length _ _ _ (iv_maps _ _ _ _ _ _ _ _ Hi)), (iv_a _ _ _ _ _ _ _ _ Hi), (iv_b _ _ _ _ _ _ _ _ Hi). eapply nop_lens; eassumption.
  - assumption.
  - split; [reflexivity|assumption].
  - exists pl'. split; [assumption|]. destruct pl' as [q|]; [|assumption]. destruct Hq as [Hq [Hk Hl]].
    apply (at_place_iff hash eqb eeq E (real_env_ok E HE) HK HQ a b s' ms' L' _ _ _ Hi'). cbn [fst snd] in *. rewrite Hk. auto.
Qed.
Print Assumptions C63_addresses.

(** C63, one node per element: two elements, of one container or of two, or in a container and a handle, never share
    a node. *)
Theorem C63_no_sharing : forall (K V : Type) (hash : K -> N) (eqb : K -> K -> bool) (eeq : K * V -> K * V -> bool)
    (E : env) (a b : nat) (os : list (nop K V)) rs s pl pl' c e e',
  real_env E -> KeyOK hash eqb -> EltOK eqb eeq -> nreach hash eqb eeq E a b os rs s ->
  at_place hash eqb eeq E s pl c e -> at_place hash eqb eeq E s pl' c e' -> pl = pl' /\ e = e'.
Proof.
  intros K V hash eqb eeq E a b os rs s pl pl' c e e' HE HK HQ Hr H1 H2.
  destruct (nreach_inv hash eqb eeq E a b HE HK HQ os rs s Hr) as (ms & L & Hi & _).
  apply (at_place_iff hash eqb eeq E (real_env_ok E HE) HK HQ a b s ms L _ _ _ Hi) in H1, H2. destruct H1 as [H1 L1], H2 as [H2 L2].
  rewrite L1 in L2. injection L2 as <-. split; [|reflexivity].
  eapply at_p_inj; [apply (iv_heap _ _ _ _ _ _ _ _ Hi)|eassumption|eassumption].
Qed.
Print Assumptions C63_no_sharing.

(** C63, answers: the address an insertion or a lookup answers with is that of the element in the container, and a new
    element has an address no earlier node had. *)
Theorem C63_answers : forall (K V : Type) (hash : K -> N) (eqb : K -> K -> bool) (eeq : K * V -> K * V -> bool)
    (E : env) (a b : nat) (os : list (nop K V)) rs s (o : nop K V) s' i k,
  real_env E -> KeyOK hash eqb -> EltOK eqb eeq -> nreach hash eqb eeq E a b os rs s -> i < a ->
  (forall v x y, o = NOp (MOne i (OEmplace k v)) \/ o = NOp (MOne i (OAssign k v)) \/ o = NArgs i k v ->
     nexec hash eqb eeq E s o = Ok (s', MR (RInserted x y)) ->
     eqb k (fst y) = true /\ at_place hash eqb eeq E s' (InMap i) (fst (snd y)) (strip y) /\
     (x = true <-> heap_of s !! fst (snd y) = None)) /\
  (forall y, nexec hash eqb eeq E s (NOp (MOne i (OFind k))) = Ok (s', MR (RFound (Some y))) ->
     s' = s /\ eqb k (fst y) = true /\ at_place hash eqb eeq E s (InMap i) (fst (snd y)) (strip y)).
Proof.
  intros K V hash eqb eeq E a b os rs s o s' i k HE HK HQ Hr Hia.
  destruct (nreach_inv hash eqb eeq E a b HE HK HQ os rs s Hr) as (ms & L & Hi & _). split.
  - intros v x y Ho Hex.
    destruct (inv_step hash eqb eeq E (real_env_ok E HE) HK HQ a b s ms L o Hi) as (s1 & r & ms' & L' & He & Hi' & Hp).
    { destruct Ho as [->|[->| ->]]; cbn; auto. }
    rewrite Hex in He. injection He as <- <-.
    rewrite (at_place_iff hash eqb eeq E (real_env_ok E HE) HK HQ a b s' ms' L' _ _ _ Hi'). cbn [at_p].
    assert (Hms : i < length ms) by (rewrite <- (Forall2_length _ _ _ (iv_maps _ _ _ _ _ _ _ _ Hi)), (iv_a _ _ _ _ _ _ _ _ Hi); assumption).
    pose proof (iv_heap _ _ _ _ _ _ _ _ Hi) as HO.
    assert (Hold : forall z, In z (mget ms i) -> exists v0, heap_of s !! snd z = Some (Live (fst z, v0))) by (intros z Hz; apply (ho_live _ _ HO); eapply owned_map; eassumption).
    assert (Hnew : heap_of s !! length (heap_of s) = None) by (apply lookup_ge_None_2; lia).
    destruct Ho as [->|[->| ->]]; cbn [p_step] in Hp.
    + destruct Hp as (_ & r0 & m' & [= <-] & Hp & -> & _). cbn [p_one] in Hp. unfold mget in Hp |- *. rewrite nth_upd_eq by assumption.
      destruct (s_find eqb (nth i ms []) k) as [z|] eqn:Hf.
      * destruct Hp as ((w & (v0 & Hv0 & ->) & [= -> ->]) & -> & HH). apply (s_find_some eqb) in Hf. destruct Hf as [Hin Hk].
        cbn [fst snd strip]. destruct z as [kz az]. cbn in *. rewrite HH. split; [assumption|]. split; [auto|]. rewrite Hv0. split; discriminate.
      * destruct Hp as [([= -> ->] & -> & ->)|([=] & _)]. cbn [fst snd strip]. split; [apply (ko_refl _ _ HK)|]. split; [split; [left; reflexivity|]|tauto].
        rewrite lookup_app_r by lia. rewrite Nat.sub_diag. reflexivity.
    + destruct Hp as (_ & r0 & m' & [= <-] & Hp & -> & _). cbn [p_one] in Hp. unfold mget in Hp |- *. rewrite nth_upd_eq by assumption.
      destruct (s_find eqb (nth i ms []) k) as [z|] eqn:Hf.
      * destruct Hp as ([= -> ->] & -> & HH). apply (s_find_some eqb) in Hf. destruct Hf as [Hin Hk]. destruct (Hold z Hin) as [v0 Hv0].
        cbn [fst snd strip]. rewrite HH. split; [assumption|]. rewrite Hv0. split; [|split; discriminate]. destruct z as [kz az]. cbn in *. split; [assumption|].
        apply list_lookup_insert. eapply lookup_lt_Some. eassumption.
      * destruct Hp as [([= -> ->] & -> & ->)|([=] & _)]. cbn [fst snd strip]. split; [apply (ko_refl _ _ HK)|]. split; [split; [left; reflexivity|]|tauto].
        rewrite lookup_app_r by lia. rewrite Nat.sub_diag. reflexivity.
    + destruct Hp as (_ & Hp). destruct (s_find eqb (mget ms i) k) as [z|] eqn:Hf.
      * destruct Hp as ((w & (v0 & Hv0 & ->) & [= -> ->]) & -> & HH & _). apply (s_find_some eqb) in Hf. destruct Hf as [Hin Hk].
        cbn [fst snd strip]. rewrite HH, Hv0. split; [assumption|]. split; [|split; discriminate]. destruct z as [kz az]. cbn in *. split; [assumption|].
        rewrite lookup_app_l; [assumption|]. eapply lookup_lt_Some. eassumption.
      * destruct Hp as (HH & [([= -> ->] & -> & _)|([=] & _)]). cbn [fst snd strip]. split; [apply (ko_refl _ _ HK)|]. rewrite HH. split; [|tauto]. split.
        -- unfold mget. rewrite nth_upd_eq by assumption. left. reflexivity.
        -- rewrite lookup_app_r by lia. rewrite Nat.sub_diag. reflexivity.
  - intros y Hex. destruct (inv_find hash eqb eeq E (real_env_ok E HE) HK HQ a b s ms L i k Hi Hia) as (y' & Hex' & Hy).
    rewrite Hex in Hex'. injection Hex' as -> <-. split; [reflexivity|].
    rewrite (at_place_iff hash eqb eeq E (real_env_ok E HE) HK HQ a b s ms L _ _ _ Hi). cbn [at_p].
    destruct (s_find eqb (mget ms i) k) as [z|] eqn:Hf; [|discriminate]. destruct Hy as (w & (v0 & Hv0 & ->) & [= ->]).
    apply (s_find_some eqb) in Hf. destruct Hf as [Hin Hk]. cbn [fst snd strip]. destruct z as [kz az]. auto.
Qed.
Print Assumptions C63_answers.

(** C63, nodes: after any program the nodes alive are one for each element of a container, one for each handle that
    holds one, and the lost ones; no node is between allocation and construction.  When handles and containers are
    destroyed, every node is destroyed and given back exactly once, except the lost ones: those of an emplace that
    built the element first and then threw. *)
Theorem C63_nodes : forall (K V : Type) (hash : K -> N) (eqb : K -> K -> bool) (eeq : K * V -> K * V -> bool)
    (E : env) (a b : nat) (os : list (nop K V)) rs s,
  real_env E -> KeyOK hash eqb -> EltOK eqb eeq -> nreach hash eqb eeq E a b os rs s ->
  live (heap_of s) = list_sum (map t_size (fst (fst s))) + length (elems (snd (fst s))) + lost os rs /\ raw (heap_of s) = 0 /\
  exists H', teardown s = Ok H' /\ live H' = lost os rs /\ raw H' = 0.
Proof.
  intros K V hash eqb eeq E a b os rs s HE HK HQ Hr.
  destruct (nreach_inv hash eqb eeq E a b HE HK HQ os rs s Hr) as (ms & L & Hi & HL).
  destruct (heap_ok_live _ _ (iv_heap _ _ _ _ _ _ _ _ Hi)) as [H1 H2].
  destruct (teardown_ok hash eqb E (real_env_ok E HE) HK a b s ms L Hi) as (H' & Ht & HO').
  destruct (heap_ok_live _ _ HO') as [H3 H4]. split; [|split; [assumption|exists H'; split; [assumption|split; [lia|assumption]]]].
  rewrite H1. unfold owned. rewrite !app_length, HL.
  assert (Hc : length (concat ms) = list_sum (map t_size (fst (fst s)))); [|lia].
  pose proof (iv_maps _ _ _ _ _ _ _ _ Hi) as HF. clear -HF. induction HF as [|t m ts ms [Hg Hp] _ IH]; [reflexivity|].
  cbn [concat map list_sum fold_right]. rewrite app_length. change (fold_right Nat.add 0 (map t_size ts)) with (list_sum (map t_size ts)). rewrite <- IH.
  rewrite (good_size hash eqb E _ Hg), Hp. reflexivity.
Qed.
Print Assumptions C63_nodes.

(** ** Examples *)
Definition ex_nops : list (nop N N) :=
  map NOp ex_mops ++ [NArgs 0 7%N 70%N; NArgs 0 7%N 71%N; NOp (MOne 0 (OFind 7%N)); NOp (MOne 0 (ORehash 100%N)); NOp (MOne 0 (OFind 7%N)); NOp (MExtract 0 7%N 0); NOp (MInsertNode 1 0);
                      NOp (MOne 1 (OFind 7%N))].
Lemma ex_nops_ok : Forall (nop_ok ex_env 3 1) ex_nops.
Proof.
  unfold ex_nops. apply Forall_app. split.
  - apply Forall_map. eapply Forall_impl; [apply ex_mops_ok|]. intros o Ho. exact Ho.
  - repeat constructor. discriminate.
Qed.
Definition ex_nrun : list (mout N (nat * N)) * (nat * nat) :=
  match nrun ex_hash N.eqb ex_eeq ex_env (nstart 3 1) ex_nops with Ok (s, rs) => (rs, (live (heap_of s), length (heap_of s))) | _ => ([], (0, 0)) end.
Example C63_example : real_env ex_env /\ KeyOK ex_hash N.eqb /\ EltOK N.eqb ex_eeq /\ Forall (nop_ok ex_env 3 1) ex_nops /\
  (exists s rs, nreach ex_hash N.eqb ex_eeq ex_env 3 1 ex_nops rs s) /\
  drop 15 (fst ex_nrun) =
    [MDone; MBool true; MR (RInserted false (7%N, (16, 70%N))); MBool false; MDone; MDone;
     MR (RFound (Some (7%N, (7, 7%N)))); MR (RFound (Some (7%N, (16, 70%N)))); MDone; MNode (Some (7%N, (7, 7%N))); MBool false;
     MR (RFound None); MBool true; MR (RFound (Some (7%N, (7, 7%N))));
     MErased 4 [(0%N, (12, 0%N)); (1%N, (13, 1%N)); (5%N, (14, 5%N)); (6%N, (15, 6%N)); (7%N, (16, 70%N)); (8%N, (17, 8%N));
                (9%N, (18, 9%N)); (10%N, (19, 10%N)); (11%N, (20, 11%N))];
     MR (RSize 5); MDone; MR (RSize 0); MR (RSize 5); MR (RInserted true (7%N, (21, 70%N))); MR (RInserted false (7%N, (21, 70%N)));
     MR (RFound (Some (7%N, (21, 70%N)))); MR RUnit; MR (RFound (Some (7%N, (21, 70%N)))); MNode (Some (7%N, (21, 70%N)));
     MBool false; MR (RFound (Some (7%N, (16, 70%N))))] /\
  snd ex_nrun = (14, 23).
Proof.
  split; [apply ex_env_real|]. split; [apply ex_key|]. split; [apply ex_elt|]. split; [apply ex_nops_ok|]. split.
  - destruct (C63_contents N N ex_hash N.eqb ex_eeq ex_env 3 1 ex_nops ex_env_real ex_key ex_elt ex_nops_ok) as (s & rs & _ & Hr & _).
    exists s, rs. split; [apply ex_nops_ok|assumption].
  - split; vm_compute; reflexivity.
Qed.

(** C63, a finding: emplace with arguments that do not show the key builds the element before it looks for room.  If
    making room throws, the element and its node are never destroyed and never given back, although nothing was
    inserted: "no node is leaked" is false of programs that survive std::bad_alloc.  The witness: a map that cannot
    get memory for its first table. *)
Definition ex_small : env := Build_env (group_sse2 false) 30 8 3 0%Z.
Theorem C63_args_leak_refuted : exists (E : env) (os : list (nop N N)) rs s H',
  real_env E /\ nreach ex_hash N.eqb ex_eeq E 1 0 os rs s /\ rs = [MR RThrow] /\
  nexec ex_hash N.eqb ex_eeq E s (NOp (MOne 0 OSize)) = Ok (s, MR (RSize 0)) /\
  teardown s = Ok H' /\ H' = [Live (7%N, 70%N)].
Proof.
  exists ex_small, [NArgs 0 7%N 70%N], [MR RThrow], ([empty_table], [], [Live (7%N, 70%N)]), [Live (7%N, 70%N)].
  split; [constructor; try reflexivity; try (split; [discriminate|reflexivity]); try discriminate; left; exists false; reflexivity|].
  split; [split; [repeat constructor|vm_compute; reflexivity]|]. split; [reflexivity|].
  split; [vm_compute; reflexivity|]. split; [vm_compute; reflexivity|reflexivity].
Qed.
Print Assumptions C63_args_leak_refuted.

(** C63, a finding: new_element allocates the node and then constructs the element in it, with nothing in between to give
    the memory back.  If the constructor throws during emplace, the memory of the node is still allocated when the
    container has been destroyed. *)
Theorem C63_ctor_throws_refuted : exists (t' : table N nat) (H H' : list (cell (N * N))),
  emplace_ctor_throws ex_hash N.eqb ex_env [] empty_table 7%N = Ok (H, t', true) /\
  teardown ([t'], [], H) = Ok H' /\ H' = [Raw].
Proof.
  destruct (emplace_ctor_throws ex_hash N.eqb ex_env (@nil (cell (N * N))) empty_table 7%N) as [[[H t'] b]| | | |] eqn:He;
    [|vm_compute in He; discriminate He..].
  vm_compute in He. injection He as <- <- <-.
  eexists _, _, _. split; [reflexivity|]. split; [vm_compute; reflexivity|reflexivity].
Qed.
Print Assumptions C63_ctor_throws_refuted.
