(** Node containers: the heap of nodes, and what every call does to pointers, handles and nodes. *)
From stdpp Require Import list.
From Coq Require Import Arith NArith ZArith Lia ZifyBool ZifyNat.
From Verif.Common Require Import Res Word WordFacts.
From Verif.Swiss Require Import Group GroupSpec Model Probe Inv TableInv Resize Ops MapSpec History Reserve Multi MultiSpec MultiProof MultiHistory Node.
From Verif.Swiss Require LifeProof.
Local Open Scope nat_scope.
Local Open Scope res_scope.
Local Arguments cnt : simpl never.
Local Arguments elems : simpl never.

Section Heap.
Context {K V : Type}.
Notation elt := (K * V)%type.
Notation ptr := (K * nat)%type.
Notation heap := (list (cell elt)).
Implicit Types (H : heap) (x : ptr) (l P D : list ptr) (a : nat).

Lemma new_element_eq H (e : elt) : new_element H e = Ok (H ++ [Live e], length H).
Proof.
  unfold new_element, alloc_node, construct_node. rewrite (load_some (H ++ [Raw]) (length H) Raw).
  - cbn [rbind]. rewrite store_ok by (rewrite app_length; cbn; lia). cbn [rbind].
    rewrite insert_app_r_alt by lia. rewrite Nat.sub_diag. reflexivity.
  - rewrite lookup_app_r by lia. rewrite Nat.sub_diag. reflexivity.
Qed.
Lemma delete_element_eq H a (e : elt) : H !! a = Some (Live e) -> delete_element H a = Ok (<[a := Freed]> H).
Proof.
  intros Ha. pose proof (lookup_lt_Some _ _ _ Ha) as Hl. unfold delete_element, destroy_node, free_node.
  rewrite (load_some _ _ _ Ha). cbn [rbind]. rewrite store_ok by assumption. cbn [rbind].
  rewrite (load_some (<[a := Raw]> H) a Raw) by (apply list_lookup_insert; assumption). cbn [rbind].
  rewrite store_ok by (rewrite insert_length; assumption). rewrite list_insert_insert. reflexivity.
Qed.
Lemma read_node_eq H a (e : elt) : H !! a = Some (Live e) -> read_node H a = Ok e.
Proof. intros Ha. unfold read_node. rewrite (load_some _ _ _ Ha). reflexivity. Qed.

(** the element a pointer of the table leads to, with its address *)
Definition leads H x (y : K * (nat * V)) : Prop := exists v, H !! snd x = Some (Live (fst x, v)) /\ y = (fst x, (snd x, v)).
Lemma read_eq H x y : leads H x y -> read H x = Ok y.
Proof. intros (v & Hx & ->). unfold read. rewrite (read_node_eq _ _ _ Hx). reflexivity. Qed.
Lemma read_all_eq H l ys : Forall2 (leads H) l ys -> read_all H l = Ok ys.
Proof. induction 1 as [|x y l ys Hxy _ IH]; cbn [read_all]; [reflexivity|]. rewrite (read_eq _ _ _ Hxy), IH. reflexivity. Qed.

(** [P] lists the pointers held by containers and handles, and those lost *)
Record heap_ok P H : Prop := {
  ho_nodup : NoDup (map snd P);
  ho_live : forall x, In x P -> exists v, H !! snd x = Some (Live (fst x, v));
  ho_own : forall a e, H !! a = Some (Live e) -> In a (map snd P);
  ho_raw : forall a, H !! a <> Some Raw
}.
Lemma heap_ok_nil : heap_ok [] [].
Proof. constructor; [constructor|intros x []|intros a e; discriminate|intros a; discriminate]. Qed.
Lemma heap_ok_perm P P' H : P ≡ₚ P' -> heap_ok P H -> heap_ok P' H.
Proof.
  intros Hp [H1 H2 H3 H4]. constructor; [rewrite <- Hp; assumption| | |assumption].
  - intros x Hx. apply H2. eapply Permutation_in; [symmetry; exact Hp|assumption].
  - intros a e Ha. eapply Permutation_in; [apply Permutation_map; exact Hp|]. eapply H3; eassumption.
Qed.
Lemma heap_ok_leads P H x : heap_ok P H -> In x P -> exists y, leads H x y.
Proof. intros HO Hx. destruct (ho_live _ _ HO x Hx) as [v Hv]. exists (fst x, (snd x, v)), v. auto. Qed.
Lemma heap_ok_leads_all P H l : heap_ok P H -> (forall x, In x l -> In x P) -> exists ys, Forall2 (leads H) l ys.
Proof.
  intros HO. induction l as [|x l IH]; intros Hl; [exists []; constructor|].
  destruct (heap_ok_leads _ _ x HO) as [y Hy]; [apply Hl; left; reflexivity|].
  destruct IH as [ys Hys]; [intros z Hz; apply Hl; right; assumption|]. exists (y :: ys). constructor; assumption.
Qed.
Lemma heap_ok_addr P H x : heap_ok P H -> In x P -> snd x < length H.
Proof. intros HO Hx. destruct (ho_live _ _ HO x Hx) as [v Hv]. apply lookup_lt_Some in Hv. assumption. Qed.
Lemma heap_ok_new P H k (v : V) : heap_ok P H -> heap_ok ((k, length H) :: P) (H ++ [Live (k, v)]).
Proof.
  intros HO. constructor.
  - cbn [map snd]. constructor; [|apply (ho_nodup _ _ HO)]. intros Hin. apply elem_of_list_In, in_map_iff in Hin.
    destruct Hin as (x & Hx & Hin). pose proof (heap_ok_addr _ _ _ HO Hin). lia.
  - intros x [<-|Hx]; cbn [fst snd].
    + exists v. rewrite lookup_app_r by lia. rewrite Nat.sub_diag. reflexivity.
    + destruct (ho_live _ _ HO x Hx) as [w Hw]. exists w. rewrite lookup_app_l by (apply lookup_lt_Some in Hw; assumption). assumption.
  - intros a e Ha. apply lookup_app_Some in Ha. destruct Ha as [Ha|[Ha Hb]]; [right; apply (ho_own _ _ HO a e Ha)|].
    destruct (a - length H) eqn:Hd; [|destruct n; discriminate]. left. cbn. lia.
  - intros a Ha. apply lookup_app_Some in Ha. destruct Ha as [Ha|[Ha Hb]]; [apply (ho_raw _ _ HO a Ha)|].
    destruct (a - length H) eqn:Hd; [discriminate|destruct n; discriminate].
Qed.
Lemma heap_ok_del P H x : heap_ok (x :: P) H -> delete_element H (snd x) = Ok (<[snd x := Freed]> H) /\ heap_ok P (<[snd x := Freed]> H).
Proof.
  intros HO. destruct (ho_live _ _ HO x (or_introl eq_refl)) as [v Hv]. split; [eapply delete_element_eq; eassumption|].
  pose proof (ho_nodup _ _ HO) as Hnd. cbn [map] in Hnd. apply NoDup_cons in Hnd. destruct Hnd as [Hni Hnd]. rewrite elem_of_list_In in Hni.
  pose proof (lookup_lt_Some _ _ _ Hv) as Hl. constructor; [assumption| | |].
  - intros y Hy. destruct (ho_live _ _ HO y (or_intror Hy)) as [w Hw]. exists w.
    rewrite list_lookup_insert_ne; [assumption|]. intros Heq. apply Hni. rewrite Heq. apply in_map. assumption.
  - intros a e Ha. destruct (Nat.eq_dec (snd x) a) as [<-|Hne]; [rewrite list_lookup_insert in Ha by assumption; discriminate|].
    rewrite list_lookup_insert_ne in Ha by assumption. destruct (ho_own _ _ HO a e Ha) as [Heq|Hin]; [contradiction|assumption].
  - intros a Ha. destruct (Nat.eq_dec (snd x) a) as [<-|Hne]; [rewrite list_lookup_insert in Ha by assumption; discriminate|].
    rewrite list_lookup_insert_ne in Ha by assumption. apply (ho_raw _ _ HO a Ha).
Qed.
(** appended and deleted at once *)
Lemma heap_ok_freed P H : heap_ok P H -> heap_ok P (H ++ [Freed]).
Proof.
  intros HO. constructor; [apply (ho_nodup _ _ HO)| | |].
  - intros x Hx. destruct (ho_live _ _ HO x Hx) as [w Hw]. exists w. rewrite lookup_app_l by (apply lookup_lt_Some in Hw; assumption). assumption.
  - intros a e Ha. apply lookup_app_Some in Ha. destruct Ha as [Ha|[Ha Hb]]; [apply (ho_own _ _ HO a e Ha)|].
    destruct (a - length H) eqn:Hd; [discriminate|destruct n; discriminate].
  - intros a Ha. apply lookup_app_Some in Ha. destruct Ha as [Ha|[Ha Hb]]; [apply (ho_raw _ _ HO a Ha)|].
    destruct (a - length H) eqn:Hd; [discriminate|destruct n; discriminate].
Qed.
Lemma heap_ok_assign P H x (v : V) : heap_ok P H -> In x P ->
  assign_node H (snd x) v = Ok (<[snd x := Live (fst x, v)]> H) /\ heap_ok P (<[snd x := Live (fst x, v)]> H).
Proof.
  intros HO Hx. destruct (ho_live _ _ HO x Hx) as [w Hw]. pose proof (lookup_lt_Some _ _ _ Hw) as Hl. split.
  { unfold assign_node. rewrite (read_node_eq _ _ _ Hw). cbn [rbind fst]. apply store_ok. assumption. }
  constructor; [apply (ho_nodup _ _ HO)| | |].
  - intros y Hy. destruct (Nat.eq_dec (snd x) (snd y)) as [Heq|Hne].
    + rewrite <- Heq, list_lookup_insert by assumption. destruct (ho_live _ _ HO y Hy) as [u Hu]. rewrite <- Heq, Hw in Hu.
      injection Hu as Hk _. exists v. rewrite Hk. reflexivity.
    + rewrite list_lookup_insert_ne by assumption. apply (ho_live _ _ HO y Hy).
  - intros a e Ha. destruct (Nat.eq_dec (snd x) a) as [<-|Hne]; [apply in_map; assumption|].
    rewrite list_lookup_insert_ne in Ha by assumption. apply (ho_own _ _ HO a e Ha).
  - intros a Ha. destruct (Nat.eq_dec (snd x) a) as [<-|Hne]; [rewrite list_lookup_insert in Ha by assumption; discriminate|].
    rewrite list_lookup_insert_ne in Ha by assumption. apply (ho_raw _ _ HO a Ha).
Qed.

(** the nodes of [D] are given back, the others are as they were *)
Definition freed H D H' : Prop := length H' = length H /\ (forall a, In a (map snd D) -> H' !! a = Some Freed) /\
  (forall a, ~ In a (map snd D) -> H' !! a = H !! a).
Lemma freed_nil H : freed H [] H.
Proof. split; [reflexivity|]. split; [intros a []|reflexivity]. Qed.
Lemma freed_perm H D D' H' : D ≡ₚ D' -> freed H D H' -> freed H D' H'.
Proof.
  intros Hp (H1 & H2 & H3). split; [assumption|]. split; intros a Ha.
  - apply H2. eapply Permutation_in; [apply Permutation_map; symmetry; exact Hp|assumption].
  - apply H3. intros Hin. apply Ha. eapply Permutation_in; [apply Permutation_map; exact Hp|assumption].
Qed.
Lemma delete_all_ok D : forall P H, heap_ok (D ++ P) H -> exists H', delete_all H D = Ok H' /\ heap_ok P H' /\ freed H D H'.
Proof.
  induction D as [|x D IH]; intros P H HO; cbn [delete_all].
  - exists H. split; [reflexivity|]. split; [assumption|]. split; [reflexivity|]. split; [intros a []|reflexivity].
  - pose proof (heap_ok_del (D ++ P) H x HO) as [Hd HO']. rewrite Hd. cbn [rbind].
    destruct (ho_live _ _ HO x (or_introl eq_refl)) as [v Hv]. pose proof (lookup_lt_Some _ _ _ Hv) as Hl.
    destruct (IH P _ HO') as (H' & G1 & G2 & G3 & G4 & G5). exists H'. split; [assumption|]. split; [assumption|].
    pose proof (ho_nodup _ _ HO) as Hnd. cbn [app map] in Hnd. apply NoDup_cons in Hnd. destruct Hnd as [Hni _].
    split; [rewrite G3; apply insert_length|]. split.
    + intros a [<-|Ha]; [|auto]. rewrite G5.
      * apply list_lookup_insert. assumption.
      * intros Hin. apply Hni. rewrite elem_of_list_In, map_app. apply in_or_app. left. assumption.
    + intros a Ha. cbn [map In] in Ha. rewrite G5 by tauto. apply list_lookup_insert_ne. tauto.
Qed.

Lemma clone_all_ok l : forall P H, heap_ok P H -> (forall x, In x l -> In x P) -> exists H' l' es,
  clone_all H l = Ok (H', l') /\ heap_ok (l' ++ P) H' /\ length H <= length H' /\ (forall a, a < length H -> H' !! a = H !! a) /\
  Forall2 (fun x e => fst e = fst x /\ H !! snd x = Some (Live e)) l es /\
  Forall2 (fun x e => fst e = fst x /\ H' !! snd x = Some (Live e) /\ length H <= snd x) l' es.
Proof.
  induction l as [|x l IH]; intros P H HO Hl; cbn [clone_all].
  - exists H, [], []. split; [reflexivity|]. split; [assumption|]. repeat split; auto.
  - destruct (ho_live _ _ HO x (Hl x (or_introl eq_refl))) as [v Hv]. rewrite (read_node_eq _ _ _ Hv). cbn [rbind].
    rewrite new_element_eq. cbn [rbind fst].
    destruct (IH _ _ (heap_ok_new P H (fst x) v HO)) as (H' & l' & es & G1 & G2 & G3 & G4 & G5 & G6).
    { intros y Hy. right. apply Hl. right. assumption. }
    rewrite app_length in G3, G4, G6. cbn [length] in G3, G4, G6. rewrite G1. cbn [rbind].
    exists H', ((fst x, length H) :: l'), ((fst x, v) :: es). split; [reflexivity|]. split.
    { eapply heap_ok_perm; [|exact G2]. symmetry. apply Permutation_middle. }
    split; [lia|]. split; [intros a Ha; rewrite G4 by lia; apply lookup_app_l; assumption|]. split.
    + constructor; [split; [reflexivity|assumption]|].
      apply Forall2_same_length_lookup. apply Forall2_same_length_lookup in G5. destruct G5 as [GL G5]. split; [assumption|].
      intros i y e Hy He. destruct (G5 i y e Hy He) as [F1 F2]. split; [assumption|].
      rewrite lookup_app_l in F2; [assumption|]. apply (heap_ok_addr P H y HO). apply Hl. right. apply elem_of_list_In, elem_of_list_lookup. eauto.
    + constructor.
      * cbn [fst snd]. split; [reflexivity|]. split; [|lia]. rewrite G4 by lia. rewrite lookup_app_r by lia. rewrite Nat.sub_diag. reflexivity.
      * eapply Forall2_impl; [exact G6|]. intros y e (F1 & F2 & F3). repeat split; [assumption|assumption|lia].
Qed.

(** ** destroy_slots and clear *)
Lemma destroy_loop_eq (t : table K nat) : LifeProof.clean t -> forall n i H, i + n = t_cap t ->
  destroy_loop (seq i n) t H = delete_all H (elems (drop i (t_slots t))).
Proof.
  intros [Hlen Hcl] n. induction n as [|n IH]; intros i H Hi; cbn [seq destroy_loop].
  - rewrite drop_ge by lia. reflexivity.
  - destruct (Hcl i ltac:(lia)) as (c & s & Hc & Hs & Hf). rewrite (load_some _ _ _ Hc). cbn [rbind]. rewrite Hf.
    rewrite (drop_S _ _ _ Hs). unfold deref. rewrite (load_some _ _ _ Hs). cbn [rbind].
    destruct s as [x|]; cbn [Life.is_raw negb of_option rbind].
    + rewrite elems_cons_some. cbn [delete_all]. destruct (delete_element H (snd x)) as [H'| | | |]; cbn [rbind]; try reflexivity.
      apply IH. lia.
    + rewrite (IH (S i)) by lia. f_equal.
Qed.
Lemma destroy_elements_eq (t : table K nat) H : LifeProof.clean t -> destroy_elements t H = delete_all H (elems (t_slots t)).
Proof. intros Hcl. unfold destroy_elements. rewrite (destroy_loop_eq t Hcl) by reflexivity. rewrite drop_0. reflexivity. Qed.
End Heap.

(** ** Who owns what *)
Section Owners.
Context {A : Type}.
Implicit Types (ms : list (list A)) (ns : list (option A)).
Definition opt (o : option A) : list A := match o with Some x => [x] | None => [] end.
Lemma concat_upd ms i m : i < length ms -> concat (upd ms i m) ≡ₚ m ++ concat (upd ms i []).
Proof.
  revert i. induction ms as [|m0 ms IH]; intros [|i] Hi; cbn in Hi |- *; try lia; [reflexivity|].
  rewrite IH by lia. rewrite !app_assoc. f_equiv. apply Permutation_app_comm.
Qed.
Lemma upd_get ms i : upd ms i (nth i ms []) = ms.
Proof. revert i. induction ms as [|m ms IH]; intros [|i]; cbn; try reflexivity. f_equal. apply IH. Qed.
Lemma concat_get ms i : i < length ms -> concat ms ≡ₚ nth i ms [] ++ concat (upd ms i []).
Proof. intros Hi. rewrite <- (upd_get ms i) at 1. apply concat_upd. assumption. Qed.
Lemma upd_len {B} (l : list B) i x : length (upd l i x) = length l.
Proof. revert i. induction l as [|b l IH]; intros [|i]; cbn; auto. Qed.
Lemma upd_upd_ne {B} (l : list B) i j x y : i <> j -> upd (upd l i x) j y = upd (upd l j y) i x.
Proof. revert i j. induction l as [|b l IH]; intros [|i] [|j] Hne; cbn; try reflexivity; [contradiction|]. f_equal. apply IH. lia. Qed.
Lemma nth_upd_ne {B} (l : list B) i j x d : i <> j -> nth j (upd l i x) d = nth j l d.
Proof. revert i j. induction l as [|b l IH]; intros [|i] [|j] Hne; cbn; try reflexivity; [contradiction|]. apply IH. lia. Qed.
Lemma nth_upd_eq {B} (l : list B) i x d : i < length l -> nth i (upd l i x) d = x.
Proof. revert i. induction l as [|b l IH]; intros [|i] Hi; cbn in *; try lia; [reflexivity|]. apply IH. lia. Qed.
Lemma concat_upd2 ms i j x y : i <> j -> i < length ms -> j < length ms ->
  concat (upd (upd ms i x) j y) ≡ₚ x ++ y ++ concat (upd (upd ms i []) j []).
Proof.
  intros Hne Hi Hj. rewrite concat_upd by (rewrite upd_len; assumption). rewrite (upd_upd_ne ms i j) by assumption.
  rewrite concat_upd by (rewrite upd_len; assumption). rewrite (upd_upd_ne ms j i) by (intros ->; contradiction).
  rewrite !app_assoc. f_equiv. apply Permutation_app_comm.
Qed.
Lemma concat_get2 ms i j : i <> j -> i < length ms -> j < length ms ->
  concat ms ≡ₚ nth i ms [] ++ nth j ms [] ++ concat (upd (upd ms i []) j []).
Proof.
  intros Hne Hi Hj. rewrite <- (concat_upd2 ms i j) by assumption. rewrite upd_get.
  rewrite upd_get. reflexivity.
Qed.
Lemma elems_upd ns n o : n < length ns -> elems (upd ns n o) ≡ₚ opt o ++ elems (upd ns n None).
Proof.
  unfold elems. revert n. induction ns as [|m ns IH]; intros [|n] Hn; cbn in Hn |- *; try lia; unfold id; [destruct o; reflexivity|].
  destruct m; rewrite IH by lia; [|reflexivity]. apply Permutation_middle.
Qed.
Lemma elems_get ns n : n < length ns -> elems ns ≡ₚ opt (nth n ns None) ++ elems (upd ns n None).
Proof.
  intros Hn. rewrite <- (elems_upd ns n) by assumption. f_equiv. clear Hn. revert n.
  induction ns as [|m ns IH]; intros [|n]; cbn; try reflexivity. f_equal. apply IH.
Qed.
End Owners.

Section Step.
Context {K V : Type} (hash : K -> N) (eqb : K -> K -> bool) (eeq : K * V -> K * V -> bool) (E : env).
Notation elt := (K * V)%type.
Notation ptr := (K * nat)%type.
Notation ptable := (table K nat).
Notation heap := (list (cell elt)).
Notation W := (g_width (e_group E)).

(** What a call does at the level of pointers: [ms] the pointers of each container, [ns] those of the handles, [H]
    the nodes, [L] the pointers lost. *)
Definition pstate := (list (list ptr) * list (option ptr) * heap * list ptr)%type.
Definition p_one (m : list ptr) (H : heap) (o : op K V) (r : out K (nat * V)) (m' : list ptr) (H' : heap) : Prop :=
  match o with
  | OEmplace k v =>
      match s_find eqb m k with
      | Some x => (exists y, leads H x y /\ r = RInserted false y) /\ m' = m /\ H' = H
      | None => (r = RInserted true (k, (length H, v)) /\ m' = (k, length H) :: m /\ H' = H ++ [Live (k, v)]) \/
                (r = RThrow /\ m' = m /\ H' = H)
      end
  | OAssign k v =>
      match s_find eqb m k with
      | Some x => r = RInserted false (fst x, (snd x, v)) /\ m' = m /\ H' = <[snd x := Live (fst x, v)]> H
      | None => (r = RInserted true (k, (length H, v)) /\ m' = (k, length H) :: m /\ H' = H ++ [Live (k, v)]) \/
                (r = RThrow /\ m' = m /\ H' = H)
      end
  | OFind k =>
      match s_find eqb m k with
      | Some x => exists y, leads H x y /\ r = RFound (Some y)
      | None => r = RFound None
      end /\ m' = m /\ H' = H
  | OErase k =>
      match s_find eqb m k with
      | Some x => (exists y, leads H x y /\ r = RErased (Some y)) /\ H' = <[snd x := Freed]> H
      | None => r = RErased None /\ H' = H
      end /\ m' = s_erase eqb m k
  | OClear => r = RUnit /\ m' = [] /\ freed H m H'
  | ORehash _ | OReserve _ => (r = RUnit \/ r = RThrow) /\ m' = m /\ H' = H
  | OSize => r = RSize (length m) /\ m' = m /\ H' = H
  | OTraverse => (exists l ys, Permutation l m /\ Forall2 (leads H) l ys /\ r = RElems ys) /\ m' = m /\ H' = H
  end.
Definition p_step (s : pstate) (o : nop K V) (r : mout K (nat * V)) (s' : pstate) : Prop :=
  let '(ms, ns, H, L) := s in
  let '(ms', ns', H', L') := s' in
  match o with
  | NArgs i k v =>
      ns' = ns /\
      match s_find eqb (mget ms i) k with
      | Some x => (exists y, leads H x y /\ r = MR (RInserted false y)) /\ ms' = ms /\ H' = H ++ [Freed] /\ L' = L
      | None => H' = H ++ [Live (k, v)] /\
          ((r = MR (RInserted true (k, (length H, v))) /\ ms' = upd ms i ((k, length H) :: mget ms i) /\ L' = L) \/
           (r = MR RThrow /\ ms' = ms /\ L' = (k, length H) :: L))
      end
  | NOp o => L' = L /\
      match o with
      | MOne i o1 => exists r0 m', r = MR r0 /\ p_one (mget ms i) H o1 r0 m' H' /\ ms' = upd ms i m' /\ ns' = ns
      | MCopy i j => ns' = ns /\
          ((r = MDone /\ exists l' H1, ms' = upd ms i l' /\ freed H1 (mget ms i) H' /\ length H <= length H1 /\
             (forall a, a < length H -> H1 !! a = H !! a) /\
             Forall2 (fun x x' => fst x' = fst x /\ length H <= snd x' /\
                                  exists v, H !! snd x = Some (Live (fst x, v)) /\ H1 !! snd x' = Some (Live (fst x, v))) (mget ms j) l') \/
           (r = MThrew /\ ms' = ms /\ H' = H))
      | MMove i j => r = MDone /\ ns' = ns /\
          if i =? j then ms' = ms /\ H' = H else ms' = upd (upd ms i (mget ms j)) j [] /\ freed H (mget ms i) H'
      | MSwap i j => r = MDone /\ ns' = ns /\ H' = H /\ ms' = upd (upd ms i (mget ms j)) j (mget ms i)
      | MMerge i j => ns' = ns /\ H' = H /\
          ((r = MDone /\ ms' = upd (upd ms i (List.filter (fun e => negb (has_key eqb (mget ms i) e)) (mget ms j) ++ mget ms i))
                                   j (List.filter (has_key eqb (mget ms i)) (mget ms j))) \/
           (r = MThrew /\ exists moved rest, Permutation (mget ms j) (moved ++ rest) /\
              (forall e, In e moved -> has_key eqb (mget ms i) e = false) /\
              ms' = upd (upd ms i (moved ++ mget ms i)) j rest))
      | MExtract i k n => (exists y, r = MNode y /\ match s_find eqb (mget ms i) k with None => y = None | Some x => exists z, leads H x z /\ y = Some z end) /\
          ms' = upd ms i (s_erase eqb (mget ms i) k) /\ ns' = upd ns n (s_find eqb (mget ms i) k) /\
          freed H (opt (nget ns n)) H'
      | MInsertNode i n => H' = H /\
          match nget ns n with
          | None => r = MBool false /\ ms' = ms /\ ns' = ns
          | Some e =>
              if has_key eqb (mget ms i) e then r = MBool false /\ ms' = ms /\ ns' = ns
              else (r = MBool true /\ ms' = upd ms i (e :: mget ms i) /\ ns' = upd ns n None) \/ (r = MThrew /\ ms' = ms /\ ns' = ns)
          end
      | MEq i j => H' = H /\ ms' = ms /\ ns' = ns /\
          exists ci cj b, Forall2 (fun x e => fst e = fst x /\ H !! snd x = Some (Live e)) (mget ms i) ci /\
            Forall2 (fun x e => fst e = fst x /\ H !! snd x = Some (Live e)) (mget ms j) cj /\
            r = MBool b /\ (b = true <-> same_assocs eeq ci cj)
      | MEraseIf i p => exists seen ys, r = MErased (length (List.filter (on_node H p) (mget ms i))) ys /\ Permutation seen (mget ms i) /\
          Forall2 (leads H) seen ys /\ ns' = ns /\ ms' = upd ms i (List.filter (fun x => negb (on_node H p x)) (mget ms i)) /\
          freed H (List.filter (on_node H p) (mget ms i)) H'
      end
  end.
Inductive p_run : pstate -> list (nop K V) -> list (mout K (nat * V)) -> pstate -> Prop :=
| p_run_nil s : p_run s [] [] s
| p_run_cons s o r s1 os rs s2 : p_step s o r s1 -> p_run s1 os rs s2 -> p_run s (o :: os) (r :: rs) s2.

Definition owned (ms : list (list ptr)) (ns : list (option ptr)) (L : list ptr) : list ptr := concat ms ++ elems ns ++ L.

Context (HE : env_ok E) (HK : KeyOK hash eqb) (HQ : EltOK eqb eeq).
Set Default Proof Using "HE HK HQ".
Notation good := (good hash eqb E).
Notation R := (@History.R K nat hash eqb E).

Lemma filter_split {A} (p : A -> bool) (l : list A) : l ≡ₚ List.filter p l ++ List.filter (fun x => negb (p x)) l.
Proof using.
  induction l as [|x l IH]; [reflexivity|]. cbn [List.filter]. destruct (p x); cbn [negb app]; [constructor; assumption|].
  rewrite <- Permutation_middle. constructor. assumption.
Qed.
(* looking up a key splits the container *)
Lemma s_erase_split (m : list ptr) k x : distinct eqb m -> s_find eqb m k = Some x -> m ≡ₚ x :: s_erase eqb m k.
Proof using HK.
  clear HE HQ. induction m as [|y m IH]; cbn; [discriminate|]. intros [Hy Hd]. destruct (eqb k (fst y)) eqn:Ek; cbn [negb].
  - intros [= ->]. constructor. unfold s_erase. rewrite filter_all; [reflexivity|]. intros z Hz.
    destruct (eqb k (fst z)) eqn:Ez; [|reflexivity]. rewrite (ko_sym _ _ HK) in Ek.
    pose proof (Hy z Hz) as Hf. rewrite (ko_trans _ _ HK _ _ _ Ek Ez) in Hf. discriminate.
  - intros Hf. change (List.filter (fun e => negb (eqb k (fst e))) m) with (s_erase eqb m k).
    rewrite (IH Hd Hf) at 1. apply perm_swap.
Qed.
Lemma s_erase_none (m : list ptr) k : s_find eqb m k = None -> s_erase eqb m k = m.
Proof using.
  clear. intros Hf. apply filter_all. intros x Hx. destruct (eqb k (fst x)) eqn:Ek; [|reflexivity]. exfalso.
  revert Hf Hx. induction m as [|y m IH]; cbn; [intros _ []|]. destruct (eqb k (fst y)) eqn:Ey; [discriminate|].
  intros Hf [->|Hx]; [congruence|auto].
Qed.

Lemma R_destroy (t : ptable) m P (H : heap) : R t m -> heap_ok (m ++ P) H ->
  exists H', destroy_elements t H = Ok H' /\ heap_ok P H' /\ freed H m H'.
Proof using HE HK.
  clear HQ. intros [Hg Hp] HO. rewrite destroy_elements_eq by (eapply LifeProof.good_clean; eassumption).
  destruct (delete_all_ok (elems (t_slots t)) P H) as (H' & G1 & G2 & G3).
  - eapply heap_ok_perm; [|exact HO]. rewrite Hp. reflexivity.
  - exists H'. split; [assumption|]. split; [assumption|]. eapply freed_perm; eassumption.
Qed.

Lemma emplace_n_eq (H : heap) (t : ptable) k (v : V) :
  emplace_n hash eqb E H t k v =
    let* (t', p, b) := emplace hash eqb E t k (length H) in Ok (if b then H ++ [Live (k, v)] else H, t', p, b).
Proof using.
  unfold emplace_n, emplace. destruct (find_key hash eqb E t k) as [[p|]| | | |]; cbn [rbind]; try reflexivity.
  destruct (prepare_insert hash E t (hash k)) as [[t1 p]| | | |]; cbn [rbind]; try reflexivity.
  rewrite new_element_eq. cbn [rbind]. destruct (finish_insert hash E t1 p (k, length H)); reflexivity.
Qed.
Lemma exec_n_ok (t : ptable) m P (H : heap) o : R t m -> heap_ok (m ++ P) H -> op_ok E o ->
  exists H' t' r m', exec_n hash eqb E H t o = Ok (H', t', r) /\ p_one m H o r m' H' /\ R t' m' /\ heap_ok (m' ++ P) H'.
Proof using HE HK.
  clear HQ. intros HR HO Ho. pose proof HR as [Hg Hp].
  assert (Hin : forall i x, t_slots t !! i = Some (Some x) -> In x (m ++ P)).
  { intros i x Hx. apply in_or_app. left. eapply Permutation_in; [exact Hp|]. apply elems_in. eauto. }
  assert (Hld : forall i x, t_slots t !! i = Some (Some x) -> exists y, leads H x y) by (intros i x Hx; eapply heap_ok_leads; eauto).
  destruct o as [k v|k v|k|k| |n|n| |]; cbn [exec_n p_one].
  - (* emplace *)
    rewrite emplace_n_eq. destruct (present_or_absent eqb t k) as [(i & x & Hs & Hk)|Ha].
    + rewrite (R_present hash eqb E HE HK _ _ _ _ _ HR Hs Hk).
      rewrite (emplace_old hash eqb E HE HK t k (length H) i x Hg Hs Hk). cbn [rbind]. unfold inserted_n. cbn [rbind].
      unfold deref. rewrite (load_some _ _ _ Hs). cbn [rbind of_option]. destruct (Hld _ _ Hs) as [y Hy]. rewrite (read_eq _ _ _ Hy). cbn [rbind catch_n].
      exists H, t, (RInserted false y), m. split; [reflexivity|]. split; [eauto|]. auto.
    + rewrite (R_absent hash eqb E HE HK _ _ _ HR Ha).
      destruct (emplace_new hash eqb E HE HK t k (length H) Hg Ha) as [[Hem _]|(t' & p & Hem & Ht' & Hsl & Hsz & Hpm & _)]; rewrite Hem; cbn [rbind].
      * unfold inserted_n. cbn [rbind catch_n]. exists H, t, RThrow, m. split; [reflexivity|]. split; [auto|]. auto.
      * unfold inserted_n. cbn [rbind]. unfold deref. rewrite (load_some _ _ _ Hsl). cbn [rbind of_option].
        rewrite (read_eq _ _ (k, (length H, v))).
        2:{ exists v. cbn [fst snd]. split; [|reflexivity]. rewrite lookup_app_r by lia. rewrite Nat.sub_diag. reflexivity. }
        cbn [rbind catch_n]. eexists _, _, _, _. split; [reflexivity|]. split; [left; eauto|].
        split; [split; [right; assumption|rewrite Hpm; constructor; assumption]|]. apply heap_ok_new. assumption.
  - (* insert_or_assign *)
    rewrite emplace_n_eq. destruct (present_or_absent eqb t k) as [(i & x & Hs & Hk)|Ha].
    + rewrite (R_present hash eqb E HE HK _ _ _ _ _ HR Hs Hk).
      rewrite (emplace_old hash eqb E HE HK t k (length H) i x Hg Hs Hk). cbn [rbind]. unfold inserted_n.
      unfold deref. rewrite !(load_some _ _ _ Hs). cbn [rbind of_option].
      destruct (heap_ok_assign _ _ x v HO (Hin _ _ Hs)) as [Has HO']. rewrite Has. cbn [rbind]. rewrite !(load_some _ _ _ Hs). cbn [rbind of_option].
      rewrite (read_eq _ _ (fst x, (snd x, v))).
      2:{ exists v. split; [|reflexivity]. apply list_lookup_insert. eapply heap_ok_addr; eauto. }
      cbn [rbind catch_n]. eexists _, _, _, _. split; [reflexivity|]. split; [eauto|]. auto.
    + rewrite (R_absent hash eqb E HE HK _ _ _ HR Ha).
      destruct (emplace_new hash eqb E HE HK t k (length H) Hg Ha) as [[Hem _]|(t' & p & Hem & Ht' & Hsl & Hsz & Hpm & _)]; rewrite Hem; cbn [rbind].
      * unfold inserted_n. cbn [rbind catch_n]. exists H, t, RThrow, m. split; [reflexivity|]. split; [auto|]. auto.
      * unfold inserted_n. cbn [rbind]. unfold deref. rewrite (load_some _ _ _ Hsl). cbn [rbind of_option].
        rewrite (read_eq _ _ (k, (length H, v))).
        2:{ exists v. cbn [fst snd]. split; [|reflexivity]. rewrite lookup_app_r by lia. rewrite Nat.sub_diag. reflexivity. }
        cbn [rbind catch_n]. eexists _, _, _, _. split; [reflexivity|]. split; [left; eauto|].
        split; [split; [right; assumption|rewrite Hpm; constructor; assumption]|]. apply heap_ok_new. assumption.
  - (* find *)
    destruct (exec_ok hash eqb E HE HK t m (OFind k) HR I) as (t' & r & m' & He & [Hr ->] & HR' & _). cbn [exec] in He.
    destruct (find_key hash eqb E t k) as [[p|]| | | |]; cbn [rbind] in He |- *; try discriminate.
    + unfold deref in *. destruct (load (t_slots t) p) as [[x|]| | | |] eqn:Hl; cbn [rbind of_option] in He |- *; try discriminate.
      injection He as <- <-. injection Hr as <-. cbn [rbind]. unfold load in Hl.
      destruct (t_slots t !! p) as [s|] eqn:Hs; cbn in Hl; [|discriminate]. injection Hl as ->.
      destruct (Hld _ _ Hs) as [y Hy]. rewrite (read_eq _ _ _ Hy). cbn [rbind]. exists H, t, (RFound (Some y)), m. split; [reflexivity|]. split; [eauto|auto].
    + injection He as <- <-. injection Hr as <-. exists H, t, (RFound None), m. split; [reflexivity|]. split; [eauto|auto].
  - (* erase *)
    destruct (exec_ok hash eqb E HE HK t m (OErase k) HR I) as (t' & r & m' & He & [Hr ->] & HR' & _). cbn [exec] in He.
    destruct (erase_key hash eqb E t k) as [[x t1]| | | |]; cbn [rbind] in He |- *; try discriminate.
    injection He as <- <-. injection Hr as ->. destruct (s_find eqb m k) as [x|] eqn:Hf.
    + pose proof (s_erase_split m k x (R_distinct hash eqb E HE HK _ _ HR) Hf) as Hsp.
      assert (HO1 : heap_ok (x :: s_erase eqb m k ++ P) H) by (eapply heap_ok_perm; [|exact HO]; rewrite Hsp at 1; reflexivity).
      destruct (heap_ok_leads _ _ x HO1 (or_introl eq_refl)) as [y Hy]. rewrite (read_eq _ _ _ Hy). cbn [rbind].
      destruct (heap_ok_del _ _ _ HO1) as [Hd HO2]. rewrite Hd. cbn [rbind]. eexists _, _, _, _. split; [reflexivity|]. split; [split; [eauto|reflexivity]|]. auto.
    + eexists _, _, _, _. split; [reflexivity|]. split; [split; [split; reflexivity|reflexivity]|]. split; [assumption|].
      rewrite s_erase_none by assumption. assumption.
  - (* clear *)
    destruct (exec_ok hash eqb E HE HK t m OClear HR I) as (t' & r & m' & He & [-> ->] & HR' & _). cbn [exec] in He.
    destruct (clear E t) as [t1| | | |] eqn:Hc; cbn [rbind] in He |- *; try discriminate. injection He as <-.
    destruct ((t_size t =? 0) || (t_cap t =? 0)) eqn:Hz; cbn [rbind].
    + assert (Hm : m = []).
      { apply nil_length_inv. pose proof (good_size hash eqb E t Hg) as Hsz. pose proof (good_room hash eqb E t Hg) as [_ Hrm]. apply Permutation_length in Hp. lia. }
      subst m. exists H, t1, RUnit, []. split; [reflexivity|]. split; [|auto]. split; [reflexivity|]. split; [reflexivity|apply freed_nil].
    + destruct (R_destroy t m P H HR HO) as (H' & G1 & G2 & G3). rewrite G1. cbn [rbind].
      exists H', t1, RUnit, []. split; [reflexivity|]. auto.
  - (* rehash *)
    destruct (exec_ok hash eqb E HE HK t m (ORehash n) HR Ho) as (t' & r & m' & He & [Hr ->] & HR' & _). cbn [exec] in He.
    unfold rehash_n. destruct Ho as [Hn _]. destruct (N.eqb_spec n 0); [contradiction|]. cbn [andb rbind].
    destruct (rehash hash E t n) as [t1| | | |]; cbn [rbind catch catch_n] in He |- *; try discriminate; injection He as <- <-;
      eexists _, _, _, _; (split; [reflexivity|]); (split; [split; [auto|split; reflexivity]|]); auto.
  - (* reserve *)
    destruct (exec_ok hash eqb E HE HK t m (OReserve n) HR Ho) as (t' & r & m' & He & [Hr ->] & HR' & _). cbn [exec] in He. unfold reserve in He.
    destruct (GrowthToLowerboundCapacity W n) as [q| | | |]; cbn [rbind catch catch_n] in He |- *; try discriminate.
    2:{ injection He as <- <-. eexists _, _, _, _; (split; [reflexivity|]); (split; [split; [auto|split; reflexivity]|]); auto. }
    unfold rehash_n.
    assert (Hd : (if (q =? 0)%N && negb (t_cap t =? 0) && (t_size t =? 0) then destroy_elements t H else Ok H) = Ok H).
    { destruct ((q =? 0)%N && negb (t_cap t =? 0) && (t_size t =? 0)) eqn:Hc; [|reflexivity].
      rewrite destroy_elements_eq by (eapply LifeProof.good_clean; eassumption).
      assert (Hz : elems (t_slots t) = []) by (apply nil_length_inv; rewrite <- (good_size hash eqb E t Hg); lia). rewrite Hz. reflexivity. }
    rewrite Hd. cbn [rbind]. destruct (rehash hash E t q) as [t1| | | |]; cbn [rbind catch catch_n] in He |- *; try discriminate; injection He as <- <-;
      eexists _, _, _, _; (split; [reflexivity|]); (split; [split; [auto|split; reflexivity]|]); auto.
  - exists H, t, (RSize (length m)), m. split; [|auto]. rewrite (good_size hash eqb E t Hg), Hp. reflexivity.
  - (* traverse *)
    destruct (iterate_ok hash eqb E HE HK t Hg) as (is & _ & Htl & _). rewrite Htl. cbn [rbind].
    destruct (heap_ok_leads_all _ _ (elems (t_slots t)) HO) as [ys Hys].
    { intros x Hx. apply in_or_app. left. eapply Permutation_in; eassumption. }
    rewrite (read_all_eq _ _ _ Hys). cbn [rbind]. exists H, t, (RElems ys), m. split; [reflexivity|]. split; [|auto]. split; [|auto]. exists (elems (t_slots t)), ys. auto.
Qed.
(** ** The elements as a reader sees them *)
Definition shows (H : heap) (x : ptr) (e : elt) : Prop := fst e = fst x /\ H !! snd x = Some (Live e).
Lemma heap_ok_shows P (H : heap) l : heap_ok P H -> (forall x, In x l -> In x P) -> exists es, Forall2 (shows H) l es.
Proof using.
  clear. intros HO. induction l as [|x l IH]; intros Hl; [exists []; constructor|].
  destruct (ho_live _ _ HO x (Hl x (or_introl eq_refl))) as [v Hv].
  destruct IH as [es Hes]; [intros z Hz; apply Hl; right; assumption|]. exists ((fst x, v) :: es). constructor; [split; auto|assumption].
Qed.
Lemma shows_map (H : heap) (sl : list (option ptr)) : forall es, Forall2 (shows H) (elems sl) es ->
  elems (map (fun s => match s with Some x => at_ptr H x | None => None end) sl) = es.
Proof using.
  clear. induction sl as [|[x|] sl IH]; intros es HF.
  - inversion HF; subst. reflexivity.
  - rewrite elems_cons_some in HF. inversion HF as [|? e ? es' [H1 H2] HF']; subst. cbn [map]. unfold at_ptr at 1. rewrite H2.
    rewrite elems_cons_some. f_equal. apply IH. assumption.
  - cbn [map]. apply IH. exact HF.
Qed.
Lemma distinct_shows (H : heap) l es : Forall2 (shows H) l es -> distinct eqb l -> distinct eqb es.
Proof using.
  clear. induction 1 as [|x e l es [Hk _] HF IH]; cbn; [auto|]. intros [H1 H2]. split; [|auto].
  intros e' He'. apply elem_of_list_In, elem_of_list_lookup in He'. destruct He' as [i Hi].
  destruct (Forall2_lookup_r _ _ _ _ _ HF Hi) as (y & Hy & [Hky _]). rewrite Hk, Hky. apply H1.
  apply elem_of_list_In, elem_of_list_lookup. eauto.
Qed.
Lemma read_table_good P (H : heap) (t : ptable) : good t -> heap_ok P H -> (forall x, In x (elems (t_slots t)) -> In x P) ->
  exists es, Forall2 (shows H) (elems (t_slots t)) es /\ Ops.good hash eqb E (read_table H t) /\ elems (t_slots (read_table H t)) = es.
Proof using.
  clear. intros Hg HO Hin. destruct (heap_ok_shows P H _ HO Hin) as [es Hes]. exists es. split; [assumption|].
  assert (Hel : elems (t_slots (read_table H t)) = es) by (apply shows_map; assumption). split; [|assumption].
  destruct Hg as [->|[[H1 H2 H3 H4 H5] Hsz Hrm Hgr Hsm Hby]]; [left; reflexivity|]. right.
  assert (Hlk : forall i s', t_slots (read_table H t) !! i = Some s' -> exists s, t_slots t !! i = Some s /\
    match s, s' with Some x, Some e => fst e = fst x | None, None => True | _, _ => False end).
  { intros i s' Hi. cbn [read_table t_slots] in Hi. rewrite list_lookup_fmap in Hi. destruct (t_slots t !! i) as [s|] eqn:Hs; [|discriminate].
    cbn in Hi. injection Hi as <-. exists s. split; [reflexivity|]. destruct s as [x|]; [|exact I].
    assert (Hx : In x P) by (apply Hin, elems_in; eauto). destruct (ho_live _ _ HO x Hx) as [v Hv]. unfold at_ptr. rewrite Hv. reflexivity. }
  constructor; cbn [read_table t_ctrl t_slots t_size t_cap t_growth]; try assumption.
  - constructor; cbn [read_table t_ctrl t_slots t_size t_cap t_growth]; [assumption|rewrite map_length; assumption| | |].
    + intros i c s' Hi Hc Hs'. destruct (Hlk i s' Hs') as (s & Hs & Hm). pose proof (H3 i c s Hi Hc Hs) as Hrel. clear -Hm Hrel.
      destruct s as [x|], s' as [e|]; cbn in Hrel |- *; try contradiction; [rewrite Hm|]; exact Hrel.
    + change (distinct eqb (elems (t_slots (read_table H t)))). rewrite Hel. eapply distinct_shows; eassumption.
    + intros i e He. destruct (Hlk i _ He) as ([x|] & Hs & Hm); [|contradiction]. rewrite Hm. apply H5. assumption.
  - change (t_size t = length (elems (t_slots (read_table H t)))). rewrite Hel, Hsz. eapply Forall2_length; eassumption.
Qed.

(** ** Copies *)
Lemma distinct_keys (l l' : list ptr) : map fst l = map fst l' -> distinct eqb l -> distinct eqb l'.
Proof using.
  clear. revert l'. induction l as [|x l IH]; intros [|y l'] Hm; cbn in Hm |- *; try discriminate; [auto|]. injection Hm as Hxy Hm.
  intros [H1 H2]. split; [|eauto]. intros z Hz. apply (in_map fst) in Hz. rewrite <- Hm in Hz. apply in_map_iff in Hz.
  destruct Hz as (w & Hw & Hin). rewrite <- Hw, <- Hxy. apply H1. assumption.
Qed.
Lemma copy_n_ok P (H : heap) (that : ptable) : good that -> heap_ok P H -> (forall x, In x (elems (t_slots that)) -> In x P) ->
  copy_n hash E H that = BadAlloc \/
  exists H' t' l' es, copy_n hash E H that = Ok (H', t') /\ good t' /\ elems (t_slots t') ≡ₚ l' /\ heap_ok (l' ++ P) H' /\
    length H <= length H' /\ (forall a, a < length H -> H' !! a = H !! a) /\
    Forall2 (shows H) (elems (t_slots that)) es /\
    Forall2 (fun x e => fst e = fst x /\ H' !! snd x = Some (Live e) /\ length H <= snd x) l' es.
Proof using HE HK.
  clear HQ. intros Hg HO Hin. destruct (iterate_ok hash eqb E HE HK that Hg) as (is & _ & Htl & _ & _).
  destruct (clone_all_ok (elems (t_slots that)) P H HO Hin) as (H' & l' & es & C1 & C2 & C3 & C4 & C5 & C6).
  unfold copy_n. pose proof (good_size hash eqb E that Hg) as Hsz.
  assert (Hkeys : map fst (elems (t_slots that)) = map fst l').
  { clear -C5 C6. revert l' C6. induction C5 as [|x e l es [H1 _] _ IH]; intros l' C6; inversion C6 as [|y ? l'' ? (G1 & _) C6']; subst; cbn; [reflexivity|].
    rewrite (IH l'' C6'). f_equal. congruence. }
  assert (Hlen : length l' = length (elems (t_slots that))) by (rewrite <- (map_length fst l'), <- Hkeys; apply map_length).
  destruct Hg as [->|Ht].
  - right. assert (Hl0 : l' = []) by (apply nil_length_inv; exact Hlen). subst l'. cbn in C1 |- *. injection C1 as <-.
    exists H, empty_table, [], es. split; [reflexivity|]. split; [left; reflexivity|]. split; [reflexivity|]. auto.
  - pose proof (tinv_cap _ _ _ that Ht) as Hv. pose proof (valid_cap_cases _ Hv) as Hcc.
    destruct (size_bound hash eqb E HE that Ht) as [Hsc Hc62].
    pose proof (normalize_cap _ Hv ltac:(lia)) as Hnorm.
    unfold rehash. cbn [t_cap t_size empty_table].
    destruct (N.eqb_spec (N.of_nat (t_cap that)) 0); [lia|]. cbn [andb orb].
    rewrite N.max_l by lia. rewrite Hnorm.
    destruct (N.ltb_spec (N.of_nat 0) (N.of_nat (t_cap that))); [|lia].
    pose proof (fits_no_wrap hash eqb E HE that (N.of_nat (t_cap that)) Ht ltac:(lia)) as Hnw.
    destruct (resize_tinv hash eqb E HE HK (empty_table : ptable) (N.of_nat (t_cap that))) as [[Hb Hbig]|(t0 & Hr & Ht0 & Hnd0 & Hsz0 & Hcap0 & Hel0)].
    + left. reflexivity.
    + rewrite Nat2N.id. assumption.
    + assumption.
    + cbn [t_size empty_table]. lia.
    + rewrite Hb. cbn [rbind]. left. reflexivity.
    + rewrite Hr, Htl. cbn [rbind]. rewrite C1. cbn [rbind]. right.
      rewrite Nat2N.id in Hcap0. apply Permutation_length in Hel0 as Hl0. cbn in Hl0.
      assert (Hel0' : elems (t_slots t0) = []) by (apply nil_length_inv; exact Hl0).
      destruct (copy_loop_ok hash eqb E HE HK l' t0) as (t1 & Hcl & Ht1 & Hnd1 & Hsz1 & Hcap1 & Hgr1 & Hel1).
      * apply (tv_0 _ _ _ _ Ht0).
      * assumption.
      * rewrite Hel0'. cbn [app]. eapply distinct_keys; [exact Hkeys|]. apply (good_dist hash eqb E that). right. assumption.
      * rewrite Hel0', Hcap0, Hlen. cbn. lia.
      * rewrite Hcl. cbn [rbind]. eexists H', _, l', es. split; [reflexivity|]. cbn [t_ctrl t_slots t_size t_cap t_growth].
        rewrite Hel0' in Hel1. cbn in Hel1.
        destruct (good_room hash eqb E that (or_intror Ht)) as [Hroom _].
        split; [|repeat split; [exact Hel1|apply C2|apply C2|apply C2|apply C2|assumption|assumption|assumption|assumption]].
        right. constructor; cbn [t_ctrl t_slots t_size t_cap t_growth].
        -- destruct Ht1 as [H1 H2 H3 H4 H5]. constructor; assumption.
        -- rewrite Hsz, <- Hlen. symmetry. apply Permutation_length. assumption.
        -- rewrite Hnd1, Hcap1, Hcap0. lia.
        -- rewrite Hnd1, Hgr1, (tv_growth _ _ _ _ Ht0), Hnd0, Hcap1, Hcap0, Hsz0. cbn [t_size empty_table].
           pose proof (cap_le_growth E (t_cap that)) as Hcg.
           rewrite wsub_small by lia. lia.
        -- intros _. assumption.
        -- rewrite Hcap1, Hcap0. apply (tv_bytes _ _ _ _ Ht).
Qed.

Lemma peq_ok : EltOK eqb (fun x y : ptr => eqb (fst x) (fst y)).
Proof using HK. destruct HK as [h1 h2 h3 h4]. constructor; intros; eauto. Qed.

(** ** One call *)
Lemma owned_one ms ns L i m : i < length ms -> owned (upd ms i m) ns L ≡ₚ m ++ concat (upd ms i []) ++ elems ns ++ L.
Proof using. clear. intros Hi. unfold owned. rewrite concat_upd by assumption. rewrite <- app_assoc. reflexivity. Qed.
Lemma owned_get ms ns L i : i < length ms -> owned ms ns L ≡ₚ mget ms i ++ concat (upd ms i []) ++ elems ns ++ L.
Proof using. clear. intros Hi. unfold owned, mget. rewrite (concat_get ms i) at 1 by assumption. rewrite <- app_assoc. reflexivity. Qed.
Lemma owned_two ms ns L i j x y : i <> j -> i < length ms -> j < length ms ->
  owned (upd (upd ms i x) j y) ns L ≡ₚ x ++ y ++ concat (upd (upd ms i []) j []) ++ elems ns ++ L.
Proof using. clear. intros Hne Hi Hj. unfold owned. rewrite concat_upd2 by assumption. rewrite <- !app_assoc. reflexivity. Qed.
Lemma owned_get2 ms ns L i j : i <> j -> i < length ms -> j < length ms ->
  owned ms ns L ≡ₚ mget ms i ++ mget ms j ++ concat (upd (upd ms i []) j []) ++ elems ns ++ L.
Proof using. clear. intros Hne Hi Hj. unfold owned, mget. rewrite (concat_get2 ms i j) at 1 by assumption. rewrite <- !app_assoc. reflexivity. Qed.
Lemma owned_node ms ns L i m n o : i < length ms -> n < length ns ->
  owned (upd ms i m) (upd ns n o) L ≡ₚ m ++ opt o ++ concat (upd ms i []) ++ elems (upd ns n None) ++ L.
Proof using.
  clear. intros Hi Hn. unfold owned. rewrite concat_upd by assumption. rewrite elems_upd by assumption.
  rewrite <- !app_assoc. f_equiv. rewrite !app_assoc. do 2 f_equiv. apply Permutation_app_comm.
Qed.
Lemma owned_node_get ms ns L i n : i < length ms -> n < length ns ->
  owned ms ns L ≡ₚ mget ms i ++ opt (nget ns n) ++ concat (upd ms i []) ++ elems (upd ns n None) ++ L.
Proof using.
  clear. intros Hi Hn. unfold owned, mget, nget. rewrite (concat_get ms i) at 1 by assumption. rewrite (elems_get ns n) at 1 by assumption.
  rewrite <- !app_assoc. f_equiv. rewrite !app_assoc. do 2 f_equiv. apply Permutation_app_comm.
Qed.
Lemma has_key_filter (m m' : list ptr) : m ≡ₚ List.filter (fun e => negb (has_key eqb m' e)) m ++ List.filter (has_key eqb m') m.
Proof using. clear. rewrite (filter_split (has_key eqb m') m) at 1. apply Permutation_app_comm. Qed.
Lemma leads_on (H : heap) p x y : leads H x y -> on_node H p x = p (fst y, snd (snd y)).
Proof using. clear. intros (v & Hv & ->). unfold on_node, at_ptr. rewrite Hv. reflexivity. Qed.
Lemma heap_ok_app_l P Q (H : heap) : heap_ok (P ++ Q) H -> forall x, In x P -> In x (P ++ Q).
Proof using. intros _ x Hx. apply in_or_app. auto. Qed.

Lemma nexec_ok (ts : list ptable) ns (H : heap) ms L o : Forall2 R ts ms -> heap_ok (owned ms ns L) H -> nop_ok E (length ts) (length ns) o ->
  exists ts' ns' H' r ms' L', nexec hash eqb eeq E (ts, ns, H) o = Ok ((ts', ns', H'), r) /\
    p_step (ms, ns, H, L) o r (ms', ns', H', L') /\ Forall2 R ts' ms' /\ heap_ok (owned ms' ns' L') H' /\
    length ts' = length ts /\ length ns' = length ns.
Proof.
  intros HF HO Ho. destruct o as [[i o1|i j|i j|i j|i j|i k n|i n|i j|i p]|i k v]; cbn [nop_ok mop_ok nexec p_step] in *.
  - (* one container *)
    destruct Ho as [Hi Ho]. destruct (look hash eqb E _ _ _ HF Hi) as (t & Ht & HR & Him). rewrite (load_some _ _ _ Ht). cbn [rbind].
    destruct (exec_n_ok t (mget ms i) (concat (upd ms i []) ++ elems ns ++ L) H o1 HR) as (H' & t' & r & m' & G1 & G2 & G3 & G4); [|assumption|].
    { eapply heap_ok_perm; [|exact HO]. apply owned_get. assumption. }
    rewrite G1. cbn [rbind]. eexists _, _, _, _, (upd ms i m'), L. split; [reflexivity|]. split; [split; [reflexivity|]; exists r, m'; auto|].
    rewrite upd_insert, insert_length. split; [apply Forall2_insert; assumption|]. split; [|auto]. rewrite <- upd_insert.
    eapply heap_ok_perm; [|exact G4]. symmetry. apply owned_one. assumption.
  - (* copy *)
    destruct Ho as [Hi Hj]. destruct (look hash eqb E _ _ _ HF Hi) as (ti & Hti & HRi & Him). destruct (look hash eqb E _ _ _ HF Hj) as (tj & Htj & HRj & Hjm).
    rewrite (load_some _ _ _ Hti), (load_some _ _ _ Htj). cbn [rbind].
    destruct (copy_n_ok (owned ms ns L) H tj (proj1 HRj) HO) as [Hb|(H1 & t' & l' & es & C1 & C2 & C3 & C4 & C5 & C6 & C7 & C8)].
    { intros x Hx. eapply Permutation_in; [symmetry; apply (owned_get ms ns L j); assumption|]. apply in_or_app. left.
      eapply Permutation_in; [apply HRj|assumption]. }
    + rewrite Hb. exists ts, ns, H, MThrew, ms, L. split; [reflexivity|]. split; [split; [reflexivity|]; split; [reflexivity|]; right; auto|]. auto.
    + rewrite C1. cbn [rbind].
      assert (HO1 : heap_ok (mget ms i ++ (l' ++ concat (upd ms i []) ++ elems ns ++ L)) H1).
      { eapply heap_ok_perm; [|exact C4]. rewrite (owned_get ms ns L i) by assumption. rewrite !app_assoc. do 3 f_equiv. apply Permutation_app_comm. }
      destruct (R_destroy ti _ _ H1 HRi HO1) as (H2 & D1 & D2 & D3). rewrite D1. cbn [rbind].
      (* the copies in the order of the specification *)
      assert (HF2 : Forall2 (fun x x' => fst x' = fst x /\ length H <= snd x' /\
                 exists v, H !! snd x = Some (Live (fst x, v)) /\ H1 !! snd x' = Some (Live (fst x, v))) (elems (t_slots tj)) l').
      { clear -C7 C8. revert l' C8. induction C7 as [|x e l es [S1 S2] _ IH]; intros l' C8; inversion C8 as [|y ? l'' ? (G1 & G2 & G3) C8']; subst; constructor; [|auto].
        split; [congruence|]. split; [assumption|]. exists (snd e). rewrite <- S1, <- surjective_pairing. auto. }
      destruct (Permutation_Forall2 (proj2 HRj) HF2) as (l2 & Hl2 & HF3).
      exists (<[i := t']> ts), ns, H2, MDone, (upd ms i l2), L. split; [reflexivity|]. split.
      { split; [reflexivity|]. split; [reflexivity|]. left. split; [reflexivity|]. exists l2, H1. split; [reflexivity|]. auto. }
      rewrite upd_insert, insert_length. split; [apply Forall2_insert; [assumption|]; split; [assumption|]; rewrite C3; assumption|]. split; [|auto].
      rewrite <- upd_insert. eapply heap_ok_perm; [|exact D2]. rewrite owned_one by assumption. rewrite Hl2. reflexivity.
  - (* move *)
    destruct Ho as [Hi Hj]. destruct (look hash eqb E _ _ _ HF Hi) as (ti & Hti & HRi & Him). destruct (look hash eqb E _ _ _ HF Hj) as (tj & Htj & HRj & Hjm).
    rewrite (load_some _ _ _ Hti), (load_some _ _ _ Htj). cbn [rbind move_out].
    destruct (Nat.eqb_spec i j) as [->|Hne].
    + rewrite Htj in Hti. injection Hti as <-. rewrite (load_some (<[j := empty_table]> ts) j empty_table) by (apply list_lookup_insert; assumption). cbn [rbind].
      rewrite list_insert_insert, (list_insert_id _ _ _ Htj). unfold destroy_elements. cbn [empty_table t_cap seq destroy_loop rbind].
      exists ts, ns, H, MDone, ms, L. split; [reflexivity|]. split; [auto|]. auto.
    + rewrite (load_some (<[j := empty_table]> ts) i ti) by (rewrite list_lookup_insert_ne by (intros ->; contradiction); assumption). cbn [rbind].
      assert (HO1 : heap_ok (mget ms i ++ (mget ms j ++ concat (upd (upd ms i []) j []) ++ elems ns ++ L)) H).
      { eapply heap_ok_perm; [|exact HO]. apply owned_get2; assumption. }
      destruct (R_destroy ti _ _ H HRi HO1) as (H2 & D1 & D2 & D3). rewrite D1. cbn [rbind].
      exists (<[i := tj]> (<[j := empty_table]> ts)), ns, H2, MDone, (upd (upd ms i (mget ms j)) j []), L. split; [reflexivity|]. split; [auto|].
      rewrite !insert_length. split; [|split; [|auto]].
      * rewrite !upd_insert. rewrite list_insert_commute by assumption. apply Forall2_insert; [apply Forall2_insert; assumption|]. split; [left; reflexivity|reflexivity].
      * eapply heap_ok_perm; [|exact D2]. rewrite owned_two by assumption. reflexivity.
  - (* swap *)
    destruct Ho as [Hi Hj]. destruct (look hash eqb E _ _ _ HF Hi) as (ti & Hti & HRi & Him). destruct (look hash eqb E _ _ _ HF Hj) as (tj & Htj & HRj & Hjm).
    rewrite (load_some _ _ _ Hti), (load_some _ _ _ Htj). cbn [rbind].
    exists (<[i := tj]> (<[j := ti]> ts)), ns, H, MDone, (upd (upd ms i (mget ms j)) j (mget ms i)), L. split; [reflexivity|]. split; [auto|].
    rewrite !insert_length. split; [|split; [|auto]].
    + rewrite !upd_insert. destruct (Nat.eq_dec i j) as [->|Hne].
      * rewrite Htj in Hti. injection Hti as <-. apply Forall2_insert; [apply Forall2_insert; assumption|assumption].
      * rewrite list_insert_commute by assumption. apply Forall2_insert; [apply Forall2_insert; assumption|assumption].
    + eapply heap_ok_perm; [|exact HO]. destruct (Nat.eq_dec i j) as [->|Hne].
      * rewrite !upd_insert, list_insert_insert, <- upd_insert. unfold mget. rewrite upd_get. reflexivity.
      * rewrite owned_two, (owned_get2 ms ns L i j) by assumption. rewrite !app_assoc. do 3 f_equiv. apply Permutation_app_comm.
  - (* merge *)
    destruct Ho as (Hi & Hj & Hne).
    destruct (mexec_ok hash eqb (fun x y => eqb (fst x) (fst y)) E HE HK peq_ok ts ns ms (MMerge i j) HF) as (ts' & ns' & r & ms' & G1 & G2 & G3 & G4 & G5); [cbn; auto|].
    cbn [mexec] in G1. destruct (Nat.eqb_spec i j); [contradiction|].
    destruct (load ts i) as [ti| | | |]; cbn [rbind] in G1 |- *; try discriminate.
    destruct (load ts j) as [tj| | | |]; cbn [rbind] in G1 |- *; try discriminate.
    destruct (merge hash eqb E ti tj) as [[[ti' tj'] threw]| | | |]; cbn [rbind] in G1 |- *; try discriminate. injection G1 as <- <- <-.
    destruct (look hash eqb E _ _ _ HF Hi) as (_ & _ & _ & Him). destruct (look hash eqb E _ _ _ HF Hj) as (_ & _ & _ & Hjm).
    eexists _, _, _, _, ms', L. split; [reflexivity|]. cbn [s_mstep] in G2. split.
    { split; [reflexivity|]. split; [reflexivity|]. split; [reflexivity|].
      destruct G2 as [(F1 & F2)|(F1 & mv & rs & F2 & F3 & F4)]; [left|right].
      - split; [destruct threw; [discriminate|reflexivity]|]. injection F2 as ->. reflexivity.
      - split; [destruct threw; [reflexivity|discriminate]|]. exists mv, rs. injection F4 as ->. auto. }
    split; [assumption|]. split; [|auto]. eapply heap_ok_perm; [|exact HO].
    destruct G2 as [(F1 & F2)|(F1 & mv & rs & F2 & F3 & F4)].
    + injection F2 as ->. rewrite owned_two, (owned_get2 ms ns L i j) by assumption. rewrite (has_key_filter (mget ms j) (mget ms i)) at 1.
      rewrite !app_assoc. do 3 f_equiv. rewrite <- !app_assoc. rewrite (Permutation_app_comm (mget ms i)). rewrite <- app_assoc. f_equiv. apply Permutation_app_comm.
    + injection F4 as ->. rewrite owned_two, (owned_get2 ms ns L i j) by assumption. rewrite F2. rewrite !app_assoc. do 4 f_equiv. apply Permutation_app_comm.
  - (* extract *)
    destruct Ho as [Hi Hn].
    destruct (mexec_ok hash eqb (fun x y => eqb (fst x) (fst y)) E HE HK peq_ok ts ns ms (MExtract i k n) HF) as (ts' & ns' & r & ms' & G1 & [G2a G2b] & G3 & G4 & G5); [cbn; auto|].
    cbn [mexec] in G1. injection G2b as -> ->.
    destruct (load ts i) as [ti| | | |]; cbn [rbind] in G1 |- *; try discriminate.
    destruct (lookup_lt_is_Some_2 ns n Hn) as [nd Hnd]. rewrite (load_some _ _ _ Hnd) in G1 |- *. cbn [rbind] in G1 |- *.
    destruct (erase_key hash eqb E ti k) as [[x t']| | | |]; cbn [rbind] in G1 |- *; try discriminate. injection G1 as F1 F2 F3. subst ts' r.
    injection G2a as ->.
    destruct (look hash eqb E _ _ _ HF Hi) as (t0 & _ & HR & Him).
    assert (Hnn : nget ns n = nd) by (unfold nget; apply nth_lookup_Some; assumption).
    assert (Hspl : mget ms i ≡ₚ opt (s_find eqb (mget ms i) k) ++ s_erase eqb (mget ms i) k).
    { destruct (s_find eqb (mget ms i) k) as [y|] eqn:Hf; cbn [opt app].
      - apply s_erase_split; [eapply R_distinct; first [eassumption|exact HK]|assumption].
      - rewrite s_erase_none by assumption. reflexivity. }
    assert (HO1 : heap_ok (opt nd ++ (opt (s_find eqb (mget ms i) k) ++ s_erase eqb (mget ms i) k ++ concat (upd ms i []) ++ elems (upd ns n None) ++ L)) H).
    { eapply heap_ok_perm; [|exact HO]. rewrite (owned_node_get ms ns L i n) by assumption. rewrite Hnn. rewrite Hspl at 1. rewrite !app_assoc. do 3 f_equiv.
      rewrite <- !app_assoc. rewrite app_assoc. apply Permutation_app_comm. }
    assert (Hdr : exists H', drop_node H nd = Ok H' /\
      heap_ok (opt (s_find eqb (mget ms i) k) ++ s_erase eqb (mget ms i) k ++ concat (upd ms i []) ++ elems (upd ns n None) ++ L) H' /\ freed H (opt nd) H').
    { destruct (delete_all_ok (opt nd) _ H HO1) as (H' & D1 & D2 & D3). exists H'. split; [|auto].
      destruct nd as [y|]; cbn [opt delete_all drop_node] in D1 |- *; [|assumption].
      destruct (delete_element H (snd y)); cbn [rbind] in D1 |- *; exact D1. }
    destruct Hdr as (H' & D1 & D2 & D3). rewrite D1. cbn [rbind].
    assert (Hrd : exists y, (match s_find eqb (mget ms i) k with None => Ok None | Some y => let* e := read H' y in Ok (Some e) end) = Ok y /\
       match s_find eqb (mget ms i) k with None => y = None | Some x => exists z, leads H x z /\ y = Some z end).
    { destruct (s_find eqb (mget ms i) k) as [x|] eqn:Hf; [|eauto].
      destruct (heap_ok_leads _ _ x HO1) as [z Hz]; [apply in_or_app; right; left; reflexivity|]. exists (Some z).
      assert (Hz' : leads H' x z).
      { destruct (heap_ok_leads _ _ x D2) as [z' Hz']; [left; reflexivity|]. destruct Hz as (v & Hv & ->), Hz' as (v' & Hv' & ->).
        destruct D3 as (_ & _ & D3). rewrite D3 in Hv'.
        - exists v. rewrite D3; [split; [assumption|reflexivity]|]. intros Hin. pose proof (ho_nodup _ _ HO1) as Hnd'. cbn [opt] in Hnd'.
          rewrite !map_app in Hnd'. apply NoDup_app in Hnd'. destruct Hnd' as (_ & Hnd' & _). apply elem_of_list_In in Hin. apply (Hnd' _ Hin). cbn. left.
        - intros Hin. pose proof (ho_nodup _ _ HO1) as Hnd'. cbn [opt] in Hnd'.
          rewrite !map_app in Hnd'. apply NoDup_app in Hnd'. destruct Hnd' as (_ & Hnd' & _). apply elem_of_list_In in Hin. apply (Hnd' _ Hin). cbn. left. }
      rewrite (read_eq _ _ _ Hz'). cbn [rbind]. split; [reflexivity|eauto]. }
    destruct Hrd as (y & Hy1 & Hy2). rewrite Hy1. cbn [rbind]. rewrite F2.
    eexists _, _, _, _, _, L. split; [reflexivity|]. split.
    { split; [reflexivity|]. split; [eauto|]. split; [reflexivity|]. split; [reflexivity|]. rewrite Hnn. assumption. }
    split; [assumption|]. split; [|auto]. eapply heap_ok_perm; [|exact D2]. rewrite owned_node by assumption.
    rewrite !app_assoc. do 3 f_equiv. apply Permutation_app_comm.
  - (* insert(node) *)
    destruct Ho as [Hi Hn].
    destruct (mexec_ok hash eqb (fun x y => eqb (fst x) (fst y)) E HE HK peq_ok ts ns ms (MInsertNode i n) HF) as (ts' & ns' & r & ms' & G1 & G2 & G3 & G4 & G5); [cbn; auto|].
    cbn [mexec s_mstep] in G1, G2. destruct (look hash eqb E _ _ _ HF Hi) as (_ & _ & _ & Him).
    assert (Hres : exists r', (match r with MBool b => r' = MBool b | MThrew => r' = MThrew | _ => False end) /\
      (let* t := load ts i in let* nd := load ns n in
       match insert_node hash eqb E t nd with
       | BadAlloc => Ok ((ts, ns, H), MThrew)
       | r => let* (t', nd', b) := r in Ok ((<[i := t']> ts, <[n := nd']> ns, H), MBool b) end) = Ok ((ts', ns', H), (r' : mout K (nat * V)))).
    { destruct (load ts i) as [ti| | | |]; cbn [rbind] in G1 |- *; try discriminate.
      destruct (load ns n) as [nd| | | |]; cbn [rbind] in G1 |- *; try discriminate.
      destruct (insert_node hash eqb E ti nd) as [[[t' nd'] b]| | | |]; cbn [rbind] in G1 |- *; try discriminate; injection G1 as <- <- <-; eauto. }
    destruct Hres as (r' & Hr' & Hres). rewrite Hres. exists ts', ns', H, r', ms', L. split; [reflexivity|].
    assert (Hcase : (nget ns n = None /\ r' = MBool false /\ ms' = ms /\ ns' = ns) \/
      exists e, nget ns n = Some e /\ ((has_key eqb (mget ms i) e = true /\ r' = MBool false /\ ms' = ms /\ ns' = ns) \/
        (has_key eqb (mget ms i) e = false /\ ((r' = MBool true /\ ms' = upd ms i (e :: mget ms i) /\ ns' = upd ns n None) \/ (r' = MThrew /\ ms' = ms /\ ns' = ns))))).
    { destruct (nget ns n) as [e|]; [right; exists e; split; [reflexivity|]|left].
      - destruct (has_key eqb (mget ms i) e); [left|right].
        + destruct G2 as [-> G2]. injection G2 as -> ->. auto.
        + split; [reflexivity|]. destruct G2 as [[-> G2]|[-> G2]]; injection G2 as -> ->; auto.
      - destruct G2 as [-> G2]. injection G2 as -> ->. auto. }
    split; [split; [reflexivity|]; split; [reflexivity|]|].
    { destruct Hcase as [(-> & Hc)|(e & -> & [(-> & Hc)|(-> & Hc)])]; exact Hc. }
    split; [assumption|]. split; [|auto]. eapply heap_ok_perm; [|exact HO].
    destruct Hcase as [(_ & _ & -> & ->)|(e & He & [(_ & _ & -> & ->)|(_ & [(_ & -> & ->)|(_ & -> & ->)])])]; try reflexivity.
    rewrite owned_node, (owned_node_get ms ns L i n) by assumption. rewrite He. cbn [opt app]. symmetry. apply Permutation_middle.
  - (* == *)
    destruct Ho as [Hi Hj]. destruct (look hash eqb E _ _ _ HF Hi) as (ti & Hti & HRi & Him). destruct (look hash eqb E _ _ _ HF Hj) as (tj & Htj & HRj & Hjm).
    rewrite (load_some _ _ _ Hti), (load_some _ _ _ Htj). cbn [rbind].
    assert (Hsub : forall q t, q < length ms -> R t (mget ms q) -> forall x, In x (elems (t_slots t)) -> In x (owned ms ns L)).
    { intros q t Hq HR x Hx. eapply Permutation_in; [symmetry; apply (owned_get ms ns L q); assumption|]. apply in_or_app. left.
      eapply Permutation_in; [apply HR|assumption]. }
    destruct (read_table_good _ H ti (proj1 HRi) HO (Hsub i ti Him HRi)) as (ei & Fi & Gi & Ei).
    destruct (read_table_good _ H tj (proj1 HRj) HO (Hsub j tj Hjm HRj)) as (ej & Fj & Gj & Ej).
    destruct (table_eq_ok hash eqb E HE HK eeq HQ _ _ Gi Gj) as (b & Hb & Hiff). rewrite Hb. cbn [rbind].
    destruct (Permutation_Forall2 (proj2 HRi) Fi) as (ci & Pi & Fi'). destruct (Permutation_Forall2 (proj2 HRj) Fj) as (cj & Pj & Fj').
    exists ts, ns, H, (MBool b), ms, L. split; [reflexivity|]. split; [|auto]. split; [reflexivity|]. do 3 (split; [reflexivity|]).
    exists ci, cj, b. split; [exact Fi'|]. split; [exact Fj'|]. split; [reflexivity|]. rewrite Hiff, Ei, Ej. apply same_assocs_perm; assumption.
  - (* erase_if *)
    destruct (look hash eqb E _ _ _ HF Ho) as (t & Ht & HR & Him). rewrite (load_some _ _ _ Ht). cbn [rbind].
    destruct (erase_if_ok hash eqb E HE HK (on_node H p) t (proj1 HR)) as (t' & He & Hg & _ & Hel & _). rewrite He. cbn [rbind].
    destruct (heap_ok_leads_all _ _ (elems (t_slots t)) HO) as [ys Hys].
    { intros x Hx. eapply Permutation_in; [symmetry; apply (owned_get ms ns L i); assumption|]. apply in_or_app. left. eapply Permutation_in; [apply HR|assumption]. }
    rewrite (read_all_eq _ _ _ Hys). cbn [rbind].
    destruct (delete_all_ok (List.filter (on_node H p) (elems (t_slots t)))
      (List.filter (fun x => negb (on_node H p x)) (elems (t_slots t)) ++ concat (upd ms i []) ++ elems ns ++ L) H) as (H' & D1 & D2 & D3).
    { eapply heap_ok_perm; [|exact HO]. rewrite (owned_get ms ns L i) by assumption. rewrite <- (proj2 HR). rewrite (filter_split (on_node H p) (elems (t_slots t))) at 1.
      rewrite <- app_assoc. reflexivity. }
    rewrite D1. cbn [rbind]. eexists _, _, _, _, (upd ms i (List.filter (fun x => negb (on_node H p x)) (mget ms i))), L. split; [reflexivity|]. split.
    { split; [reflexivity|]. exists (elems (t_slots t)), ys. split; [f_equal; apply Permutation_length, filter_perm, HR|]. split; [apply HR|]. split; [assumption|].
      split; [reflexivity|]. split; [reflexivity|]. eapply freed_perm; [|exact D3]. apply filter_perm, HR. }
    rewrite insert_length. split; [|split; [|auto]].
    + rewrite upd_insert. apply Forall2_insert; [assumption|]. split; [assumption|]. rewrite Hel. apply filter_perm, HR.
    + eapply heap_ok_perm; [|exact D2]. rewrite owned_one by assumption. f_equiv. apply filter_perm, HR.
  - (* emplace of an element that must be built first *)
    destruct (look hash eqb E _ _ _ HF Ho) as (t & Ht & HR & Him). rewrite (load_some _ _ _ Ht). cbn [rbind]. pose proof HR as [Hg Hp].
    unfold emplace_args_n. rewrite new_element_eq. cbn [rbind].
    destruct (present_or_absent eqb t k) as [(q & x & Hs & Hk)|Ha].
    + rewrite (R_present hash eqb E HE HK _ _ _ _ _ HR Hs Hk). rewrite (emplace_old hash eqb E HE HK t k (length H) q x Hg Hs Hk). cbn [rbind].
      rewrite (delete_element_eq _ _ (k, v)) by (rewrite lookup_app_r by lia; rewrite Nat.sub_diag; reflexivity). cbn [rbind].
      rewrite insert_app_r_alt by lia. rewrite Nat.sub_diag. cbn [insert list_insert]. unfold inserted_n. cbn [rbind].
      unfold deref. rewrite (load_some _ _ _ Hs). cbn [rbind of_option].
      assert (Hx : In x (owned ms ns L)).
      { eapply Permutation_in; [symmetry; apply (owned_get ms ns L i); assumption|]. apply in_or_app. left. eapply Permutation_in; [apply HR|]. apply elems_in. eauto. }
      destruct (heap_ok_leads _ _ x HO Hx) as [y Hy]. pose proof (heap_ok_addr _ _ _ HO Hx) as Hxl.
      assert (Hy' : leads (H ++ [Freed]) x y) by (destruct Hy as (w & Hw & ->); exists w; rewrite lookup_app_l by assumption; auto).
      rewrite (read_eq _ _ _ Hy'). cbn [rbind]. rewrite list_insert_id by assumption.
      exists ts, ns, (H ++ [Freed]), (MR (RInserted false y)), ms, L. split; [reflexivity|]. split; [split; [reflexivity|]; split; [exists y; auto|auto]|].
      split; [assumption|]. split; [|auto]. apply heap_ok_freed. assumption.
    + rewrite (R_absent hash eqb E HE HK _ _ _ HR Ha).
      destruct (emplace_new hash eqb E HE HK t k (length H) Hg Ha) as [[Hem _]|(t' & q & Hem & Ht' & Hsl & Hsz & Hpm & _)]; rewrite Hem; cbn [rbind].
      * unfold inserted_n. cbn [rbind].
        exists ts, ns, (H ++ [Live (k, v)]), (MR RThrow), ms, ((k, length H) :: L). split; [reflexivity|]. split; [split; [reflexivity|]; split; [reflexivity|]; auto|].
        split; [assumption|]. split; [|auto]. eapply heap_ok_perm; [|apply heap_ok_new; exact HO]. unfold owned. rewrite !app_assoc. apply Permutation_middle.
      * unfold inserted_n. cbn [rbind]. unfold deref. rewrite (load_some _ _ _ Hsl). cbn [rbind of_option].
        rewrite (read_eq _ _ (k, (length H, v))).
        2:{ exists v. cbn [fst snd]. split; [|reflexivity]. rewrite lookup_app_r by lia. rewrite Nat.sub_diag. reflexivity. }
        cbn [rbind]. eexists _, _, _, _, (upd ms i ((k, length H) :: mget ms i)), L. split; [reflexivity|]. split; [split; [reflexivity|]; split; [reflexivity|]; auto|].
        rewrite insert_length. split; [|split; [|auto]].
        -- rewrite upd_insert. apply Forall2_insert; [assumption|]. split; [right; assumption|]. rewrite Hpm. constructor. assumption.
        -- eapply heap_ok_perm; [|apply heap_ok_new; exact HO]. rewrite owned_one, (owned_get ms ns L i) by assumption. reflexivity.
Qed.
End Step.
