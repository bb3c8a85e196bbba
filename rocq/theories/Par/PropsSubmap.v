(** C87: the submaps of a parallel container: subidx, subcnt, with_submap, with_submap_m. *)
From stdpp Require Import list list_numbers.
From Coq Require Import Arith NArith ZArith Lia.
From Verif.Common Require Import Res Word.
From Verif.Swiss Require Import Group GroupSpec GroupProof Model Probe ProbeProof Inv TableInv Resize Ops MapSpec History Multi MultiSpec MultiProof MultiHistory PropsTable PropsMulti.
From Verif.Par Require Import Seq SeqSpec SeqProof PropsSeq PropsHSeq.
Local Open Scope nat_scope.
Local Open Scope res_scope.

Section Model.
Context {K V A : Type}.
Notation ptable := (list (table K V)).
(* with_submap (phmap.hpp 4019-4025): the callback gets one embedded table; the lock is that of C16 *)
Definition with_submap (ps : ptable) (i : nat) (f : table K V -> res A) : res A := let* t := load ps i in f t.
(* with_submap_m (4027-4033) *)
Definition with_submap_m (ps : ptable) (i : nat) (f : table K V -> res (table K V * A)) : res (ptable * A) :=
  let* t := load ps i in let* (t', x) := f t in Ok (<[i := t']> ps, x).
End Model.

Section Spec.
Context {K V : Type} (hash : K -> N) (lg : nat).
(** the calls of a sequence whose key belongs to submap i, and their answers *)
Definition op_key (o : op K V) : option K := match o with OEmplace k _ | OAssign k _ | OFind k | OErase k => Some k | _ => None end.
Definition goes (i : nat) (o : op K V) : bool := match op_key o with Some k => subidx lg (hash k) =? i | None => false end.
Definition calls (i : nat) (os : list (op K V)) : list (op K V) := List.filter (goes i) os.
Definition answers (i : nat) (os : list (op K V)) (rs : list (out K V)) : list (out K V) := map snd (List.filter (fun p => goes i (fst p)) (combine os rs)).
End Spec.
Section Batches.
Context {K V : Type} (hash : K -> N) (eqb : K -> K -> bool) (E : env).
(** a program that takes the submaps in the order [is] and makes the calls of each through with_submap_m *)
Fixpoint batches (js : nat -> list (op K V)) (is : list nat) (ps : list (table K V)) : res (list (table K V) * list (nat * list (out K V))) :=
  match is with
  | [] => Ok (ps, [])
  | i :: is' => let* (ps1, rs) := with_submap_m ps i (fun t => run hash eqb E t (js i)) in let* (ps2, rss) := batches js is' ps1 in Ok (ps2, (i, rs) :: rss)
  end.
End Batches.

Section Facts.
Context {K V : Type} (hash : K -> N) (eqb : K -> K -> bool) (E : env) (lg : nat).
Context (HE : env_ok E) (HK : KeyOK hash eqb).
Notation ptable := (list (table K V)).
Notation keyed := (fun o : op K V => op_key o <> None).
Lemma run_factor (Hlg : lg <= 12) (os : list (op K V)) : forall (ps : ptable) m, PR hash eqb E lg ps m -> Forall keyed os ->
  exists ps' rs m', p_run hash eqb E lg ps os = Ok (ps', rs) /\ PR hash eqb E lg ps' m' /\ length ps' = length ps /\ length rs = length os /\
    forall i t, ps !! i = Some t -> exists t', ps' !! i = Some t' /\ run hash eqb E t (calls hash lg i os) = Ok (t', answers hash lg i os rs).
Proof using HE HK.
  induction os as [|o os IH]; intros ps m HP Ho.
  - exists ps, [], m. repeat (split; [reflexivity || assumption|]). intros i t Hi. exists t. split; [exact Hi|reflexivity].
  - inversion Ho as [|? ? Hk Ho']; subst. destruct (op_key o) as [k|] eqn:Hok; [|contradiction].
    assert (Hex : p_exec hash eqb E lg ps o = on_key hash eqb E lg ps k o) by (destruct o; cbn in Hok; try discriminate; injection Hok as ->; reflexivity).
    destruct (on_key_ok hash eqb E lg HE HK ps m o k HP) as (ps1 & r & m1 & H1 & _ & HP1); [destruct o; exact Hok|].
    destruct (IH ps1 m1 HP1 Ho') as (ps' & rs & m' & R1 & R2 & R3 & R4 & R5).
    destruct (pgood_at hash eqb E lg ps k (proj1 HP)) as (t0 & Ht0 & _). pose proof (load_some _ _ _ Ht0) as Hl. unfold on_key in H1. rewrite Hl in H1. cbn [rbind] in H1.
    destruct (exec hash eqb E t0 o) as [[t1 r1]| | | |] eqn:Hx; cbn [rbind] in H1; try discriminate. injection H1 as <- <-.
    exists ps', (r1 :: rs), m'. cbn [p_run]. rewrite Hex. unfold on_key. rewrite Hl. cbn [rbind]. rewrite Hx. cbn [rbind]. rewrite R1. cbn [rbind].
    split; [reflexivity|]. split; [exact R2|]. split; [rewrite R3; apply insert_length|]. split; [cbn; congruence|].
    intros i t Hi. unfold calls, answers. cbn [List.filter combine fst]. assert (Hgo : goes hash lg i o = (subidx lg (hash k) =? i)) by (unfold goes; rewrite Hok; reflexivity). rewrite !Hgo. clear Hgo. destruct (Nat.eqb_spec (subidx lg (hash k)) i) as [<-|Hne].
    + rewrite Hi in Ht0. injection Ht0 as ->. destruct (R5 (subidx lg (hash k)) t1) as (t' & A & B); [apply list_lookup_insert; apply lookup_lt_Some in Hi; exact Hi|].
      exists t'. split; [exact A|]. cbn [run]. rewrite Hx. cbn [rbind]. unfold calls in B. rewrite B. reflexivity.
    + destruct (R5 i t) as (t' & A & B); [rewrite list_lookup_insert_ne by exact Hne; exact Hi|]. exists t'. split; [exact A|exact B].
Qed.
Lemma batches_ok (js : nat -> list (op K V)) (ans : nat -> list (out K V)) (ps' : ptable) (is : list nat) : forall ps : ptable, List.NoDup is -> length ps' = length ps ->
  (forall i, In i is -> exists t t', ps !! i = Some t /\ ps' !! i = Some t' /\ run hash eqb E t (js i) = Ok (t', ans i)) ->
  exists psb, batches hash eqb E js is ps = Ok (psb, map (fun i => (i, ans i)) is) /\ length psb = length ps /\
    (forall i, In i is -> psb !! i = ps' !! i) /\ (forall i, ~ In i is -> psb !! i = ps !! i).
Proof using.
  induction is as [|i is IH]; intros ps Hnd Hl Hr; [exists ps; repeat split; intros i []|]. inversion Hnd as [|? ? Hni Hnd']; subst.
  destruct (Hr i (or_introl eq_refl)) as (t & t' & Ht & Ht' & Hrun). cbn [batches map]. unfold with_submap_m. rewrite (load_some _ _ _ Ht). cbn [rbind]. rewrite Hrun. cbn [rbind].
  destruct (IH (<[i := t']> ps) Hnd') as (psb & R1 & R2 & R3 & R4); [rewrite insert_length; exact Hl| |].
  - intros x Hx. destruct (Hr x (or_intror Hx)) as (u & u' & Hu & Hu' & Hru). exists u, u'. split; [|auto]. rewrite list_lookup_insert_ne; [exact Hu|]. intros ->. contradiction.
  - rewrite R1. cbn [rbind]. exists psb. split; [reflexivity|]. split; [rewrite R2; apply insert_length|]. split.
    + intros x [<-|Hx]; [|apply R3; exact Hx]. rewrite (R4 i Hni), list_lookup_insert by (apply lookup_lt_Some in Ht; exact Ht). congruence.
    + intros x Hx. rewrite R4 by (intros H; apply Hx; right; exact H). apply list_lookup_insert_ne. intros ->. apply Hx. left. reflexivity.
Qed.
Lemma filter_none {A : Type} (f : A -> bool) (l : list A) : (forall x, f x = false) -> List.filter f l = [].
Proof using. intros H. induction l as [|x l IH]; [reflexivity|]. cbn. rewrite H. exact IH. Qed.
Lemma pelems_concat (ps : ptable) : pelems ps = concat (map (fun t => pe t) ps).
Proof using. induction ps as [|t ps IH]; [reflexivity|]. cbn. unfold pelems in IH. rewrite IH. reflexivity. Qed.
End Facts.

(** subidx is always the number of a submap. In every parallel container that a program of C13 can leave: with_submap(i) gives a traversal of the
    elements whose keys have subidx i, and of no others; the traversals of the submaps in turn are the traversal of the container; and a
    find in submap i has the answer of the container's find if the key has subidx i, and finds nothing otherwise. *)
Theorem C87_partition : forall (K V : Type) (hash : K -> N) (eqb : K -> K -> bool) (eeq : K * V -> K * V -> bool)
    (E : env) (lg n1 n2 : nat) (os : list (mop K V)) cs ns rs (c : nat) (ps : list (table K V)),
  real_env E -> KeyOK hash eqb -> EltOK eqb eeq -> lg <= 12 -> Forall (pmop_ok E lg n1 n2) os ->
  pm_run hash eqb eeq E lg (replicate n1 (p_empty lg)) (replicate n2 None) os = Ok (cs, ns, rs) -> cs !! c = Some ps ->
  (forall h, subidx lg h < num_tables lg) /\
  exists ls, p_to_list E ps = Ok (concat ls) /\ length ls = num_tables lg /\
    forall i, i < num_tables lg -> exists l, ls !! i = Some l /\ with_submap ps i (to_list E) = Ok l /\
      (forall e, In e l <-> In e (concat ls) /\ subidx lg (hash (fst e)) = i) /\
      (forall k, exists t r, with_submap ps i (fun t => exec hash eqb E t (OFind k)) = Ok (t, r) /\
         ((subidx lg (hash k) = i -> exists ps', p_exec hash eqb E lg ps (OFind k) = Ok (ps', r)) /\
          (subidx lg (hash k) <> i -> r = RFound None))).
Proof.
  intros K V hash eqb eeq E lg n1 n2 os cs ns rs c ps HE0 HK HQ Hlg Ho Hrun Hi. pose proof (real_env_ok E HE0) as HE.
  destruct (pm_run_ok hash eqb E lg HE HK Hlg eeq HQ os (replicate n1 (p_empty lg)) (replicate n2 None) (replicate n1 []))
    as (cs2 & ns2 & rs2 & ms & H1 & _ & HF); [apply pm_start|rewrite !replicate_length; assumption|].
  rewrite Hrun in H1. injection H1 as <- <- <-. destruct (Forall2_lookup_l _ _ _ _ _ HF Hi) as (m & _ & [Hg _]).
  split; [apply subidx_lt|]. pose proof (pg_good _ _ _ _ _ Hg) as Hps. exists (map (fun t => pe t) ps). rewrite <- pelems_concat.
  split; [apply (p_to_list_ok hash eqb E HE HK); [exact Hps|rewrite (pg_len _ _ _ _ _ Hg); apply num_pos]|]. split; [rewrite map_length; apply Hg|].
  intros i Hlt. rewrite <- (pg_len _ _ _ _ _ Hg) in Hlt. destruct (lookup_lt_is_Some_2 ps i Hlt) as [t Ht]. exists (pe t).
  split; [change (map (fun t => pe t) ps) with ((fun t => pe t) <$> ps); rewrite list_lookup_fmap, Ht; reflexivity|]. pose proof (Forall_lookup_1 _ _ _ _ Hps Ht) as Hgt.
  unfold with_submap. rewrite (load_some _ _ _ Ht). cbn [rbind]. split; [destruct (iterate_ok hash eqb E HE HK t Hgt) as (is & _ & H & _); exact H|]. split.
  - intros e. split.
    + intros He. split; [|apply (pg_routed _ _ _ _ _ Hg i t e Ht He)]. unfold pelems. apply in_flat_map. exists t. split; [|exact He]. apply elem_of_list_In. apply (elem_of_list_lookup_2 _ _ _ Ht).
    + intros [He Hs]. unfold pelems in He. apply in_flat_map in He as (u & Hu & He). apply elem_of_list_In, elem_of_list_lookup in Hu as (j & Hj).
      pose proof (pg_routed _ _ _ _ _ Hg j u e Hj He) as Hj'. assert (j = i) as -> by congruence. rewrite Ht in Hj. injection Hj as <-. exact He.
  - intros k. destruct (exec_ok hash eqb E HE HK t (pe t) (OFind k)) as (t' & r & a' & He & Hst & _); [apply R_pe; exact Hgt|exact I|].
    exists t', r. split; [exact He|]. split.
    + intros Hs. exists (<[i := t']> ps). cbn [p_exec]. unfold on_key. rewrite Hs, (load_some _ _ _ Ht). cbn [rbind]. rewrite He. reflexivity.
    + intros Hs. cbn in Hst. destruct Hst as [-> _]. f_equal. assert (Hno : forall e, In e (pe t) -> eqb k (fst e) = false).
      { intros e Hin. destruct (eqb k (fst e)) eqn:Hq; [|reflexivity]. exfalso. apply Hs. rewrite (ko_hash _ _ HK _ _ Hq). apply (pg_routed _ _ _ _ _ Hg i t e Ht Hin). }
      clear -Hno. induction (pe t) as [|x l IH]; [reflexivity|]. cbn. rewrite (Hno x (or_introl eq_refl)). apply IH. intros e He. apply Hno. right. exact He.
Qed.
Print Assumptions C87_partition.

(** Calls with keys of different submaps do not influence each other. In every parallel container that a program of C13 can leave: two sequences
    of calls with a key that have, for each submap, the same calls in the same order leave the same container and get, submap by submap, the same
    answers; and so does a program that makes the calls of each submap on the embedded table, through with_submap_m, taking the submaps in any order. *)
Theorem C87_independent : forall (K V : Type) (hash : K -> N) (eqb : K -> K -> bool) (eeq : K * V -> K * V -> bool)
    (E : env) (lg n1 n2 : nat) (os : list (mop K V)) cs ns rs (c : nat) (ps : list (table K V)) (os1 os2 : list (op K V)) (is : list nat),
  real_env E -> KeyOK hash eqb -> EltOK eqb eeq -> lg <= 12 -> Forall (pmop_ok E lg n1 n2) os ->
  pm_run hash eqb eeq E lg (replicate n1 (p_empty lg)) (replicate n2 None) os = Ok (cs, ns, rs) -> cs !! c = Some ps ->
  Forall (fun o => op_key o <> None) os1 -> Forall (fun o => op_key o <> None) os2 ->
  (forall i, i < num_tables lg -> calls hash lg i os1 = calls hash lg i os2) -> Permutation is (seq 0 (num_tables lg)) ->
  exists ps' rs1 rs2, p_run hash eqb E lg ps os1 = Ok (ps', rs1) /\ p_run hash eqb E lg ps os2 = Ok (ps', rs2) /\
    length rs1 = length os1 /\ length rs2 = length os2 /\ (forall i, answers hash lg i os1 rs1 = answers hash lg i os2 rs2) /\
    batches hash eqb E (fun i => calls hash lg i os1) is ps = Ok (ps', map (fun i => (i, answers hash lg i os1 rs1)) is).
Proof.
  intros K V hash eqb eeq E lg n1 n2 os cs ns rs c ps os1 os2 is HE0 HK HQ Hlg Ho Hrun Hi Hk1 Hk2 Hsame Hperm. pose proof (real_env_ok E HE0) as HE.
  destruct (pm_run_ok hash eqb E lg HE HK Hlg eeq HQ os (replicate n1 (p_empty lg)) (replicate n2 None) (replicate n1 []))
    as (cs2 & ns2 & rs2 & ms & H1 & _ & HF); [apply pm_start|rewrite !replicate_length; assumption|].
  rewrite Hrun in H1. injection H1 as <- <- <-. destruct (Forall2_lookup_l _ _ _ _ _ HF Hi) as (m & _ & HP). pose proof (pg_len _ _ _ _ _ (proj1 HP)) as Hlen.
  destruct (run_factor hash eqb E lg HE HK Hlg os1 ps m HP Hk1) as (ps1 & r1 & m1 & A1 & _ & A3 & A4 & A5).
  destruct (run_factor hash eqb E lg HE HK Hlg os2 ps m HP Hk2) as (ps2 & r2 & m2 & B1 & _ & B3 & B4 & B5).
  assert (Hboth : forall i, ps1 !! i = ps2 !! i /\ answers hash lg i os1 r1 = answers hash lg i os2 r2).
  { intros i. destruct (ps !! i) as [t|] eqn:Ht.
    - destruct (A5 i t Ht) as (t1 & Ha & Hra), (B5 i t Ht) as (t2 & Hb & Hrb). rewrite Hsame, Hrb in Hra by (rewrite <- Hlen; apply lookup_lt_Some in Ht; exact Ht).
      injection Hra as <- <-. split; [congruence|reflexivity].
    - apply lookup_ge_None in Ht. split; [rewrite !lookup_ge_None_2 by congruence; reflexivity|].
      assert (Hnone : forall o : op K V, goes hash lg i o = false).
      { intros o. unfold goes. destruct (op_key o) as [k|]; [|reflexivity]. apply Nat.eqb_neq. pose proof (subidx_lt lg (hash k)). lia. }
      unfold answers. rewrite (filter_none _ (combine os1 r1)), (filter_none _ (combine os2 r2)) by (intros x; apply Hnone). reflexivity. }
  exists ps1, r1, r2. split; [exact A1|]. split; [rewrite B1; f_equal; f_equal; apply list_eq; intros i; symmetry; apply Hboth|].
  split; [exact A4|]. split; [exact B4|]. split; [intros i; apply Hboth|].
  destruct (batches_ok hash eqb E (fun i => calls hash lg i os1) (fun i => answers hash lg i os1 r1) ps1 is ps) as (psb & C1 & C2 & C3 & C4).
  - eapply Permutation_NoDup; [symmetry; exact Hperm|apply seq_NoDup].
  - exact A3.
  - intros i Hin. apply (Permutation_in _ Hperm) in Hin. apply in_seq in Hin. destruct (lookup_lt_is_Some_2 ps i) as [t Ht]; [lia|].
    destruct (A5 i t Ht) as (t' & D1 & D2). exists t, t'. auto.
  - rewrite C1. f_equal. f_equal. apply list_eq. intros i. destruct (Nat.lt_ge_cases i (num_tables lg)) as [Hlt|Hge].
    + apply C3. apply (Permutation_in _ (Permutation_sym Hperm)). apply in_seq. lia.
    + rewrite !lookup_ge_None_2 by lia. reflexivity.
Qed.
Print Assumptions C87_independent.

(* clear(submap_index) (3587-3593) *)
Definition p_clear_sub {K V} (E : env) (ps : list (table K V)) (i : nat) : res (list (table K V)) :=
  let* (ps', _) := with_submap_m ps i (fun t => let* t' := clear E t in Ok (t', tt)) in Ok ps'.
Lemma pelems_filter {K V} (f : K * V -> bool) (ps ps' : list (table K V)) : Forall2 (fun t t' => pe t' = List.filter f (pe t)) ps ps' -> pelems ps' = List.filter f (pelems ps).
Proof. induction 1 as [|t t' ps ps' Ht _ IH]; [reflexivity|]. unfold pelems in *. cbn. rewrite List.filter_app, Ht, IH. reflexivity. Qed.

(** clear(i) removes exactly the elements whose keys have subidx i; the others keep their order, and the capacity stays. *)
Theorem C87_clear_submap : forall (K V : Type) (hash : K -> N) (eqb : K -> K -> bool) (eeq : K * V -> K * V -> bool)
    (E : env) (lg n1 n2 : nat) (os : list (mop K V)) cs ns rs (c : nat) (ps : list (table K V)) (l : list (K * V)) (i : nat),
  real_env E -> KeyOK hash eqb -> EltOK eqb eeq -> lg <= 12 -> Forall (pmop_ok E lg n1 n2) os ->
  pm_run hash eqb eeq E lg (replicate n1 (p_empty lg)) (replicate n2 None) os = Ok (cs, ns, rs) -> cs !! c = Some ps ->
  p_to_list E ps = Ok l -> i < num_tables lg ->
  exists ps', p_clear_sub E ps i = Ok ps' /\ p_to_list E ps' = Ok (List.filter (fun e => negb (subidx lg (hash (fst e)) =? i)) l) /\
    p_size ps' = length (List.filter (fun e => negb (subidx lg (hash (fst e)) =? i)) l) /\ map t_cap ps' = map t_cap ps.
Proof.
  intros K V hash eqb eeq E lg n1 n2 os cs ns rs c ps l i HE0 HK HQ Hlg Ho Hrun Hi Hl Hlt. pose proof (real_env_ok E HE0) as HE.
  destruct (pm_run_ok hash eqb E lg HE HK Hlg eeq HQ os (replicate n1 (p_empty lg)) (replicate n2 None) (replicate n1 []))
    as (cs2 & ns2 & rs2 & ms & H1 & _ & HF); [apply pm_start|rewrite !replicate_length; assumption|].
  rewrite Hrun in H1. injection H1 as <- <- <-. destruct (Forall2_lookup_l _ _ _ _ _ HF Hi) as (m & _ & [Hg _]).
  assert (Htl : forall qs : list (table K V), pgood hash eqb E lg qs -> p_to_list E qs = Ok (pelems qs)).
  { intros qs Hqs. apply (p_to_list_ok hash eqb E HE HK); [apply (pg_good _ _ _ _ _ Hqs)|]. rewrite (pg_len _ _ _ _ _ Hqs). apply num_pos. }
  rewrite (Htl ps Hg) in Hl. injection Hl as <-. rewrite <- (pg_len _ _ _ _ _ Hg) in Hlt. destruct (lookup_lt_is_Some_2 ps i Hlt) as [t Ht].
  destruct (clear_ok hash eqb E HE HK t (Forall_lookup_1 _ _ _ _ (pg_good _ _ _ _ _ Hg) Ht)) as (t' & Hc & Hgt & _ & Hn & Hcap).
  assert (Hg' : pgood hash eqb E lg (<[i := t']> ps)).
  { eapply pgood_insert; [exact Hg|exact Ht|exact Hgt|]. intros e He. unfold pe in He. rewrite Hn in He. destruct He. }
  assert (Hf : pelems (<[i := t']> ps) = List.filter (fun e => negb (subidx lg (hash (fst e)) =? i)) (pelems ps)).
  { apply pelems_filter. apply Forall2_same_length_lookup_2; [symmetry; apply insert_length|]. intros j u u' Hu Hu'. destruct (Nat.eq_dec i j) as [<-|Hne].
    - rewrite list_lookup_insert in Hu' by exact Hlt. injection Hu' as <-. unfold pe at 1. rewrite Hn. symmetry.
      assert (Hall : forall e, In e (pe u) -> negb (subidx lg (hash (fst e)) =? i) = false) by (intros e He; rewrite (pg_routed _ _ _ _ _ Hg i u e Hu He), Nat.eqb_refl; reflexivity).
      clear -Hall. induction (pe u) as [|x l IH]; [reflexivity|]. cbn. rewrite (Hall x (or_introl eq_refl)). apply IH. intros e He. apply Hall. right. exact He.
    - rewrite list_lookup_insert_ne in Hu' by exact Hne. rewrite Hu in Hu'. injection Hu' as <-. symmetry.
      assert (Hall : forall e, In e (pe u) -> negb (subidx lg (hash (fst e)) =? i) = true) by (intros e He; rewrite (pg_routed _ _ _ _ _ Hg j u e Hu He); apply negb_true_iff, Nat.eqb_neq; congruence).
      clear -Hall. induction (pe u) as [|x l IH]; [reflexivity|]. cbn. rewrite (Hall x (or_introl eq_refl)). f_equal. apply IH. intros e He. apply Hall. right. exact He. }
  exists (<[i := t']> ps). unfold p_clear_sub, with_submap_m. rewrite (load_some _ _ _ Ht). cbn [rbind]. rewrite Hc. cbn [rbind]. split; [reflexivity|].
  split; [rewrite (Htl _ Hg'), Hf; reflexivity|]. split; [rewrite (p_size_ok hash eqb E _ (pg_good _ _ _ _ _ Hg')), Hf; reflexivity|].
  change (t_cap <$> <[i := t']> ps = t_cap <$> ps). rewrite list_fmap_insert, Hcap. apply list_insert_id. rewrite list_lookup_fmap, Ht. reflexivity.
Qed.
Print Assumptions C87_clear_submap.

(** two orders of calls of four submaps, one of them submap by submap *)
Definition ex_calls1 : list (op N N) := [OEmplace 20 1; OEmplace 1 7; OErase 0; OFind 1; OAssign 20 2; OEmplace 6 5; OErase 1; OFind 0]%N.
Definition ex_calls2 : list (op N N) := [OEmplace 6 5; OEmplace 20 1; OEmplace 1 7; OFind 1; OErase 0; OErase 1; OAssign 20 2; OFind 0]%N.
Example C87_example : Forall (pmop_ok ex_env 2 1 0) (map (MOne 0) (ins (nums 0 10))) /\ Forall (fun o => op_key o <> None) ex_calls1 /\ Forall (fun o => op_key o <> None) ex_calls2 /\
  (forall i, i < 4 -> calls exp_hash 2 i ex_calls1 = calls exp_hash 2 i ex_calls2) /\
  match pm_run exp_hash N.eqb ex_eeq ex_env 2 [p_empty 2] [] (map (MOne 0) (ins (nums 0 10))) with
  | Ok ([ps], _, _) => match p_clear_sub ex_env ps 1 with Ok ps' => p_to_list ex_env ps' | _ => UB end
  | _ => UB
  end = Ok [(0, 0); (4, 4); (8, 8); (2, 2); (6, 6); (7, 7); (3, 3)]%N /\
  map (fun i => length (calls exp_hash 2 i ex_calls1)) [0; 1; 2; 3] = [4; 3; 1; 0] /\
  match pm_run exp_hash N.eqb ex_eeq ex_env 2 [p_empty 2] [] (map (MOne 0) (ins (nums 0 10))) with
  | Ok ([ps], _, _) =>
      match batches exp_hash N.eqb ex_env (fun i => calls exp_hash 2 i ex_calls1) [2; 0; 3; 1] ps with
      | Ok (ps', rss) => Some (rss, p_to_list ex_env ps', map (fun i => with_submap ps' i (to_list ex_env)) [0; 1; 2; 3]) | _ => None end
  | _ => None
  end = Some
    ([(2%nat, [RInserted false (6, 6)]); (0%nat, [RInserted true (20, 1); RErased (Some (0, 0)); RInserted false (20, 2); RFound None]); (3%nat, []);
      (1%nat, [RInserted false (1, 1); RFound (Some (1, 1)); RErased (Some (1, 1))])]%N,
     Ok [(4, 4); (8, 8); (20, 2); (5, 5); (9, 9); (2, 2); (6, 6); (7, 7); (3, 3)]%N,
     [Ok [(4, 4); (8, 8); (20, 2)]; Ok [(5, 5); (9, 9)]; Ok [(2, 2); (6, 6)]; Ok [(7, 7); (3, 3)]]%N).
Proof.
  split; [|split; [|split; [|split; [|split; [|split]]]]].
  - apply Forall_forall. intros o Ho. apply elem_of_list_fmap in Ho. destruct Ho as (x & -> & Hx).
    apply elem_of_list_fmap in Hx. destruct Hx as (k & -> & _). cbn. split; [lia|exact I].
  - repeat constructor; discriminate.
  - repeat constructor; discriminate.
  - intros i Hi. do 4 (destruct i as [|i]; [vm_compute; reflexivity|]). lia.
  - vm_compute. reflexivity.
  - vm_compute. reflexivity.
  - vm_compute. reflexivity.
Qed.
