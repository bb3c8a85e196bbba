(** Property theorems C77: parallel hash containers used by one thread, with hash and equality objects that may
    answer anything. *)
From stdpp Require Import list list_numbers.
From Coq Require Import Arith NArith ZArith Lia.
From Verif.Common Require Import Res Word.
From Verif.Swiss Require Import Group GroupSpec Model Probe Inv TableInv Resize Ops MapSpec History PropsTable
  AnyHashSpec AnyHash AnyHashProof PropsAnyHash AnyMultiSpec AnyMulti AnyMultiProof PropsAnyMulti.
From Verif.Par Require Import Seq SeqProof AnyParSpec AnyPar AnyParProof.
Local Open Scope nat_scope.
Local Open Scope res_scope.
Local Arguments elems : simpl never.

(** rehash and reserve: the part of each submap must not be 0 (C04) and its capacity must not wrap around (C50) *)
Definition pargs1 {K V} (E : env) (lg : nat) (o : call K V) : Prop :=
  match o with
  | CRehash n => let nn := (n / N.of_nat (num_tables lg))%N in nn <> 0%N /\ (nn < 2 ^ 64)%N /\ no_wrap E (NormalizeCapacity nn)
  | CReserve n => (n < 2 ^ 62)%N /\
      forall m, p_reserve_arg E lg n = Ok m -> no_wrap E (NormalizeCapacity (m / N.of_nat (num_tables lg)))
  | _ => True
  end.
Definition pargs_ok {K V} (E : env) (lg : nat) (o : mcall K V) : Prop := match o with MOn _ o => pargs1 E lg o | _ => True end.
(** what the traversals of the containers give, and what the nodes hold *)
Definition pshows {K V} (E : env) (w : @pstate K V) (s : @state K V) : Prop :=
  Forall2 (fun ps c => p_to_list E ps = Ok c) (fst w) (fst s) /\ snd s = snd w.

(** What a program of one thread can have built that began with any number of empty containers and node handles,
    with the number of the next call of one of the objects. *)
Inductive preach {K V} (hash : nat -> K -> N) (eqb : nat -> K -> K -> bool) (eeq : nat -> K * V -> K * V -> bool) (E : env) (lg : nat) (rw : bool)
  : nat -> @pstate K V -> Prop :=
| preach_start a b : preach hash eqb eeq E lg rw 0 (replicate a (p_empty lg), replicate b None)
| preach_call n w s o w' r n' : preach hash eqb eeq E lg rw n w -> pshows E w s -> pargs_ok E lg o -> musable s o ->
    p_exec_multi hash eqb eeq E lg rw n w o = Ok (w', r, n') -> preach hash eqb eeq E lg rw n' w'.

Section Calls.
Context {K V : Type} (hash : nat -> K -> N) (eqb : nat -> K -> K -> bool) (eeq : nat -> K * V -> K * V -> bool)
  (E : env) (HE : env_ok E) (lg : nat) (Hlg : lg <= 12) (rw : bool).
Local Set Default Proof Using "HE hash eqb eeq Hlg rw".
Notation elt := (K * V)%type.
Notation table := (table K V).
Notation ptable := (list table).
Notation num := (num_tables lg).

Definition cgood (ps : ptable) : Prop := Forall (wgood E) ps /\ length ps = num.
Lemma cgood_len ps : cgood ps -> 1 <= length ps.
Proof. intros [_ ->]. apply num_pos. Qed.
Lemma cgood_set ps i t : cgood ps -> wgood E t -> cgood (<[i := t]> ps).
Proof. intros [H1 H2] H. split; [apply Forall_insert; assumption|rewrite insert_length; assumption]. Qed.
Lemma cgood_empty : cgood (p_empty lg).
Proof. split; [apply Forall_replicate; left; reflexivity|apply replicate_length]. Qed.
Lemma pelems_empty (n : nat) : pelems (replicate n (@empty_table K V)) = [].
Proof. induction n as [|n IH]; [reflexivity|]. cbn. exact IH. Qed.
(* the submap of a hash *)
Lemma submap ps h : cgood ps -> exists t, ps !! subidx lg h = Some t /\ wgood E t.
Proof.
  intros [H1 H2]. destruct (lookup_lt_is_Some_2 ps (subidx lg h)) as [t Ht]; [rewrite H2; apply subidx_lt|].
  exists t. split; [assumption|]. eapply Forall_lookup_1; eassumption.
Qed.
(* what is legal in a part is legal in the whole *)
Definition keyed (o : call K V) : bool := match o with CEmplace _ _ | CAssign _ _ | CFind _ | CErase _ => true | _ => false end.
Lemma legal_part (said : K -> K -> Prop) (a b c c' : list elt) o r : keyed o = true ->
  legal said c o r c' -> legal said (a ++ c ++ b) o r (a ++ c' ++ b).
Proof.
  destruct o as [k v|k v|k|k|j| |m|m| | |]; cbn [keyed legal]; intros Hk H; try discriminate.
  - destruct H as [[-> H]|[(e & -> & H1 & H2 & ->)|[-> ->]]].
    + left. split; [reflexivity|]. rewrite H. cbn. rewrite <- Permutation_middle. reflexivity.
    + right. left. exists e. split; [reflexivity|]. rewrite !in_app_iff. auto.
    + auto.
  - destruct H as [[-> H]|[(l1 & e & l2 & -> & H1 & -> & ->)|[-> ->]]].
    + left. split; [reflexivity|]. rewrite H. cbn. rewrite <- Permutation_middle. reflexivity.
    + right. left. exists (a ++ l1), e, (l2 ++ b). rewrite <- !app_assoc. auto.
    + auto.
  - destruct H as [-> [->|(e & -> & H1 & H2)]]; [auto|]. split; [reflexivity|]. right. exists e. rewrite !in_app_iff. auto.
  - destruct H as [[-> ->]|(-> & l1 & e & l2 & -> & H1 & ->)]; [auto|]. right. split; [reflexivity|].
    exists (a ++ l1), e, (l2 ++ b). rewrite <- !app_assoc. auto.
Qed.
Lemma legal_sub (said : K -> K -> Prop) ps i t t' o r : ps !! i = Some t -> keyed o = true -> legal said (pe t) o r (pe t') ->
  legal said (pelems ps) o r (pelems (<[i := t']> ps)).
Proof.
  intros Hi Hk H. rewrite (pelems_at hash eqb eeq E HE ps i t Hi), (pelems_set hash eqb eeq E HE ps i t t' Hi). apply legal_part; assumption.
Qed.
Lemma on_key_legal ps n k o : cgood ps -> keyed o = true -> (forall t, args_ok (K := K) (V := V) E o /\ usable t o) ->
  exists ps' r n', on_key_any hash eqb E lg n ps k o = Ok (ps', r, n') /\ cgood ps' /\ legal (said eqb n n') (pelems ps) o r (pelems ps').
Proof.
  intros Hg Hk Ho. unfold on_key_any. destruct (submap ps (hash n k) Hg) as (t & Ht & Hgt). rewrite (load_some _ _ _ Ht). cbn [rbind].
  destruct (exec_legal hash eqb E HE t n o Hgt (proj1 (Ho [])) (proj2 (Ho _))) as (t' & r & n' & Hx & Hg' & Hl). rewrite Hx. cbn [rbind].
  eexists _, r, n'. split; [reflexivity|]. split; [apply cgood_set; assumption|]. eapply legal_sub; eassumption.
Qed.
Lemma assign_legal ps n k v : cgood ps ->
  exists ps' r n', p_assign_any hash eqb E lg n ps k v = Ok (ps', r, n') /\ cgood ps' /\ legal (said eqb n n') (pelems ps) (CAssign k v) r (pelems ps').
Proof.
  intros Hg. unfold p_assign_any. destruct (submap ps (hash (S n) k) Hg) as (t & Ht & Hgt). rewrite (load_some _ _ _ Ht). cbn [rbind].
  destruct (find_hash_ok E HE hash eqb t k (hash (S n) k) (S (S n)) Hgt) as (r & n1 & Hf & Hle & Hs). rewrite Hf. cbn [rbind]. destruct r as [p|].
  - destruct Hs as (e & q & Hp & Hq & Hk). destruct Hgt as [->|Hw]; [discriminate|].
    destruct (assign_at_ok E HE hash eqb t p e v Hw Hp) as (t2 & Ha & Ht2 & Hsl). rewrite Ha. cbn [rbind].
    rewrite (deref_some t2 p (fst e, v)).
    2:{ rewrite Hsl. apply list_lookup_insert. apply lookup_lt_Some in Hp. assumption. }
    cbn [rbind]. eexists _, _, n1. split; [reflexivity|]. split; [apply cgood_set; [assumption|right; assumption]|].
    apply (legal_sub _ ps _ t); [assumption|reflexivity|]. right. left.
    destruct (pe_slot hash eqb eeq E HE t p e Hp) as (l2 & Hl & _ & Hset). exists (elems (take p (t_slots t))), e, l2. split; [assumption|].
    split; [exists q; split; [lia|assumption]|]. split; [reflexivity|]. apply Hset. assumption.
  - destruct (insert_two_ok E HE hash eqb t (k, v) (hash (S n) k) (hash n k) n1 Hgt) as [Hb|(t1 & p & n2 & t2 & Hpr & Hfi & Ht2 & Hp & Hperm)].
    + rewrite Hb. eexists _, _, n1. split; [reflexivity|]. split; [assumption|]. cbn [legal]. auto.
    + rewrite Hpr. rewrite Hfi. cbn [rbind]. rewrite (deref_some t2 p _ Hp). cbn [rbind].
      eexists _, _, n2. split; [reflexivity|]. split; [apply cgood_set; [assumption|right; assumption]|].
      apply (legal_sub _ ps _ t); [assumption|reflexivity|]. left. split; [reflexivity|exact Hperm].
Qed.
Lemma erase_legal ps n k : cgood ps ->
  exists ps' r n', p_erase_any hash eqb E lg rw n ps k = Ok (ps', r, n') /\ cgood ps' /\ plegal1 rw (said eqb n n') (pelems ps) (CErase k) r (pelems ps').
Proof.
  intros Hg. unfold p_erase_any. destruct (submap ps (hash n k) Hg) as (t & Ht & Hgt). rewrite (load_some _ _ _ Ht). cbn [rbind].
  destruct (find_hash_ok E HE hash eqb t k (hash n k) (S n) Hgt) as (r & n1 & Hf & Hle & Hs). rewrite Hf. cbn [rbind]. destruct r as [p|].
  2:{ eexists _, _, n1. split; [reflexivity|]. split; [assumption|]. left. cbn [legal]. auto. }
  destruct Hs as (e & q & Hp & Hq & Hk).
  assert (Herase : forall p2 e2 q2 n2, t_slots t !! p2 = Some (Some e2) -> n <= q2 < n2 -> eqb q2 k (fst e2) = true ->
            exists t', erase_at E t p2 = Ok (e2, t') /\ cgood (<[subidx lg (hash n k) := t']> ps) /\
              legal (said eqb n n2) (pelems ps) (CErase k) (ACount 1) (pelems (<[subidx lg (hash n k) := t']> ps))).
  { intros p2 e2 q2 n2 Hp2 Hq2 Hk2. destruct Hgt as [->|Hw]; [discriminate|].
    destruct (w_erase E HE hash eqb t p2 e2 Hw Hp2) as (t' & Her & Ht' & Hsl). exists t'. split; [assumption|].
    split; [apply cgood_set; [assumption|right; assumption]|]. apply (legal_sub _ ps _ t); [assumption|reflexivity|]. right. split; [reflexivity|].
    destruct (pe_slot hash eqb eeq E HE t p2 e2 Hp2) as (l2 & Hl & Hrem & _). exists (elems (take p2 (t_slots t))), e2, l2.
    split; [assumption|]. split; [exists q2; auto|]. apply Hrem. assumption. }
  destruct rw eqn:Hrw; cbn [rbind].
  - destruct (find_hash_ok E HE hash eqb t k (hash n k) n1 Hgt) as (r2 & n2 & Hf2 & Hle2 & Hs2). rewrite Hf2. cbn [rbind]. destruct r2 as [p2|].
    + destruct Hs2 as (e2 & q2 & Hp2 & Hq2 & Hk2). destruct (Herase p2 e2 q2 n2 Hp2 ltac:(lia) Hk2) as (t' & H1 & H2 & H3). rewrite H1. cbn [rbind].
      eexists _, _, n2. split; [reflexivity|]. split; [assumption|]. left. assumption.
    + eexists _, _, n2. split; [reflexivity|]. split; [assumption|]. right. split; [reflexivity|]. split; [reflexivity|]. split; [reflexivity|].
      exists e. split; [|exists q; split; [lia|assumption]]. apply in_pelems. eexists _, t. split; [eassumption|]. unfold pe. eapply slot_elem; eassumption.
  - destruct (Herase p e q n1 Hp ltac:(lia) Hk) as (t' & H1 & H2 & H3). rewrite H1. cbn [rbind].
    eexists _, _, n1. split; [reflexivity|]. split; [assumption|]. left. assumption.
Qed.
Lemma p_exec_legal ps n o : cgood ps -> pargs1 E lg o -> usable (pelems ps) o ->
  exists ps' r n', p_exec_any hash eqb E lg rw n ps o = Ok (ps', r, n') /\ cgood ps' /\ plegal1 rw (said eqb n n') (pelems ps) o r (pelems ps').
Proof.
  intros Hg Ho Hu. pose proof Hg as [HF HL]. pose proof (cgood_len ps Hg) as H1.
  destruct o as [k v|k v|k|k|j| |m|m| | |]; cbn [p_exec_any].
  - apply on_key_legal; [assumption|reflexivity|]. intros; split; exact I.
  - apply assign_legal. assumption.
  - apply on_key_legal; [assumption|reflexivity|]. intros; split; exact I.
  - apply erase_legal. assumption.
  - cbn [usable] in Hu. unfold p_erase_nth. destruct (nth_ok hash eqb eeq E HE ps j HF H1 Hu) as (i & p & t & e & Hn & Hi & He & Hlen). rewrite Hn. cbn [rbind].
    assert (Hnx : exists it, p_next E ps (i, p) = Ok it).
    { destruct (next_pos hash eqb eeq E HE ps i p t e HF Hi He) as [[-> _]|(i' & j' & t' & e' & -> & _)]; eauto. }
    destruct Hnx as (it & ->). cbn [rbind fst snd]. rewrite (load_some _ _ _ Hi). cbn [rbind].
    destruct (erase_pos hash eqb eeq E HE ps i p t e HF Hi He) as (t' & Her & HF' & Hl & Hl'). rewrite Her. cbn [rbind].
    eexists _, _, n. split; [reflexivity|]. split; [split; [assumption|rewrite insert_length; assumption]|]. cbn [plegal1 legal]. split; [reflexivity|].
    exists (front ps i t p), e, (back ps i t (S p)). auto.
  - destruct (clear_any hash eqb eeq E HE ps HF) as (ps' & Hc & HF' & HL' & Hn). rewrite Hc. cbn [rbind].
    eexists _, _, n. split; [reflexivity|]. split; [split; [assumption|congruence]|]. cbn [plegal1 legal]. auto.
  - destruct Ho as (O1 & O2 & O3). destruct (rehash_parts hash eqb eeq E HE _ ps HF O1 O2 O3 n) as (ps' & b & n' & Hr & HF' & HL' & Hp). rewrite Hr. cbn [rbind].
    eexists _, _, n'. split; [reflexivity|]. split; [split; [assumption|congruence]|]. cbn [plegal1]. split; [destruct b; auto|assumption].
  - destruct Ho as (O1 & O2). destruct (reserve_part E lg Hlg m O1) as (q & Hq & Hq0 & Hq1). rewrite Hq. cbn [rbind].
    destruct (rehash_parts hash eqb eeq E HE _ ps HF Hq0 Hq1 (O2 q Hq) n) as (ps' & b & n' & Hr & HF' & HL' & Hp). rewrite Hr. cbn [rbind].
    eexists _, _, n'. split; [reflexivity|]. split; [split; [assumption|congruence]|]. cbn [plegal1]. split; [destruct b; auto|assumption].
  - pose proof cgood_empty as [HE1 HE2].
    destruct (copy_parts hash eqb eeq E HE (p_empty lg) HE1 ps n HF ltac:(congruence)) as (ps' & b & n' & Hr & HF' & HL' & Hp). rewrite Hr. cbn [rbind].
    destruct b.
    + eexists _, _, n'. split; [reflexivity|]. split; [assumption|]. cbn [plegal1 legal]. auto.
    + eexists _, _, n'. split; [reflexivity|]. split; [split; [assumption|congruence]|]. cbn [plegal1 legal]. auto.
  - eexists _, _, n. split; [reflexivity|]. split; [assumption|]. cbn [plegal1 legal]. rewrite (pelems_length hash eqb eeq E HE ps HF). auto.
  - rewrite (to_list_any hash eqb eeq E HE ps HF H1). cbn [rbind]. eexists _, _, n. split; [reflexivity|]. split; [assumption|]. cbn [plegal1 legal]. auto.
Qed.

(** ** several containers *)
Definition pw (w : @pstate K V) : @state K V := (pelems <$> fst w, snd w).
Definition psgood (w : @pstate K V) : Prop := Forall cgood (fst w).
Lemma fmap_set (cs : list ptable) (i : nat) c : pelems <$> <[i := c]> cs = <[i := pelems c]> (pelems <$> cs).
Proof. apply list_fmap_insert. Qed.
Lemma plook (cs : list ptable) i : Forall cgood cs -> i < length (pelems <$> cs) ->
  exists c, cs !! i = Some c /\ cgood c /\ (pelems <$> cs) !! i = Some (pelems c).
Proof.
  intros Hg Hi. rewrite fmap_length in Hi. destruct (lookup_lt_is_Some_2 cs i Hi) as [c Hc]. exists c. split; [assumption|].
  split; [eapply Forall_lookup_1; eassumption|]. rewrite list_lookup_fmap, Hc. reflexivity.
Qed.
Lemma pset (cs : list ptable) i c : Forall cgood cs -> cgood c -> Forall cgood (<[i := c]> cs).
Proof. intros. apply Forall_insert; assumption. Qed.
Lemma p_exec_multi_legal w n o : psgood w -> pargs_ok E lg o -> musable (pw w) o ->
  exists w' r n', p_exec_multi hash eqb eeq E lg rw n w o = Ok (w', r, n') /\ psgood w' /\
    plegal rw (said eqb n n') (saw eeq n n') (pw w) o r (pw w').
Proof.
  destruct w as [cs ns]. unfold psgood, pw. cbn [fst snd]. intros Hg Ho Hu.
  destruct o as [i o|d s|a b|d s|d s|a b|i p|i k m|i j m|i m]; cbn [p_exec_multi pargs_ok musable plegal mlegal] in *.
  - destruct Hu as (c & Hc & Hu). destruct (plook cs i Hg) as (ps & Hps & Hgp & Hl); [apply lookup_lt_Some in Hc; assumption|].
    rewrite Hc in Hl. injection Hl as ->. rewrite Hps. cbn [of_option rbind].
    destruct (p_exec_legal ps n o Hgp Ho Hu) as (ps' & r & n' & Hx & Hg' & Hleg). rewrite Hx. cbn [rbind].
    eexists _, _, n'. split; [reflexivity|]. cbn [fst snd]. split; [apply pset; assumption|].
    exists (pelems ps), r, (pelems ps'). rewrite fmap_set. auto.
  - destruct Hu as (Hne & Hd & Hs). destruct (plook cs d Hg Hd) as (cd & Hcd & Hgd & Hld). destruct (plook cs s Hg Hs) as (c2 & Hc2 & Hg2 & Hl2).
    rewrite Hcd, Hc2. cbn [of_option rbind].
    destruct (merge_parts hash eqb eeq E HE cd c2 n (proj1 Hgd) (proj1 Hg2) ltac:(rewrite (proj2 Hgd), (proj2 Hg2); reflexivity))
      as (cd' & c2' & b & n' & gn & kp & Hm & _ & F1 & F2 & L1 & L2 & P1 & P2 & P3 & P4).
    rewrite Hm. cbn [rbind]. eexists _, _, n'. split; [reflexivity|]. cbn [fst snd].
    split; [apply pset; [apply pset; [assumption|]|]; (split; [assumption|]); [rewrite L1; apply Hgd|rewrite L2; apply Hg2]|].
    exists (pelems cd), (pelems c2), gn, kp, (pelems cd'). rewrite !fmap_set, P3.
    split; [assumption|]. split; [assumption|]. split; [assumption|]. split; [assumption|]. split; [reflexivity|]. split; [reflexivity|].
    destruct b; [left; reflexivity|right]. split; [reflexivity|]. intros e He. destruct (P4 eq_refl e He) as (x & q & H1 & H2 & H3).
    exists x. split; [assumption|]. exists q. auto.
  - destruct Hu as [Ha Hb]. destruct (plook cs a Hg Ha) as (ta & Hta & Hga & Hla). destruct (plook cs b Hg Hb) as (tb & Htb & Hgb & Hlb).
    rewrite Hta, Htb. cbn [of_option rbind]. eexists _, _, n. split; [reflexivity|]. cbn [fst snd].
    split; [apply pset; [apply pset; assumption|assumption]|].
    exists (pelems ta), (pelems tb). rewrite !fmap_set. auto.
  - destruct Hu as (Hne & Hd & Hs). destruct (plook cs d Hg Hd) as (td & Htd & Hgd & Hld). destruct (plook cs s Hg Hs) as (t2 & Ht2 & Hg2 & Hl2).
    rewrite Htd, Ht2. cbn [of_option rbind]. eexists _, _, n. split; [reflexivity|]. cbn [fst snd].
    assert (Hem : map (fun _ => @empty_table K V) t2 = replicate (length t2) empty_table) by (clear; induction t2 as [|x l IH]; cbn; [reflexivity|f_equal; exact IH]).
    rewrite Hem. split; [apply pset; [apply pset; assumption|]; split; [apply Forall_replicate; left; reflexivity|rewrite replicate_length; apply Hg2]|].
    exists (pelems t2). rewrite !fmap_set, pelems_empty. auto.
  - destruct Hu as (Hd & Hs). destruct (plook cs d Hg Hd) as (cd & Hcd & Hgd & Hld). destruct (plook cs s Hg Hs) as (c2 & Hc2 & Hg2 & Hl2).
    rewrite Hcd, Hc2. cbn [of_option rbind].
    destruct (copy_parts hash eqb eeq E HE cd (proj1 Hgd) c2 n (proj1 Hg2) ltac:(rewrite (proj2 Hgd), (proj2 Hg2); reflexivity))
      as (cd' & b & n' & Hr & F1 & L1 & P1). rewrite Hr. cbn [rbind].
    eexists _, _, n'. split; [reflexivity|]. cbn [fst snd]. split; [apply pset; [assumption|]; split; [assumption|rewrite L1; apply Hgd]|].
    exists (pelems cd), (pelems c2). split; [assumption|]. split; [assumption|]. split; [reflexivity|]. rewrite fmap_set. destruct b.
    + right. split; [reflexivity|]. destruct P1 as (k & c1 & J1 & J2).
      exists (pelems (take k c2)), (pelems (drop k c2)), (pelems (take k cd)), (pelems (drop k cd)), c1.
      rewrite <- !pelems_app, !take_drop, J1. auto.
    + left. split; [reflexivity|]. exists (pelems cd'). auto.
  - destruct Hu as [Ha Hb]. destruct (plook cs a Hg Ha) as (ta & Hta & Hga & Hla). destruct (plook cs b Hg Hb) as (tb & Htb & Hgb & Hlb).
    rewrite Hta, Htb. cbn [of_option rbind].
    destruct (eq_parts hash eqb eeq E HE ta tb n (proj1 Hga) (proj1 Hgb) ltac:(rewrite (proj2 Hga), (proj2 Hgb); reflexivity)) as (r & n' & Hr & _ & Hin).
    rewrite Hr. cbn [rbind]. eexists _, _, n'. split; [reflexivity|]. cbn [fst snd]. split; [assumption|]. exists (pelems ta), (pelems tb), r.
    repeat (split; [assumption || reflexivity|]). intros Htr. exists (pe <$> ta), (pe <$> tb).
    split; [apply (pelems_concat hash eqb eeq E HE)|]. split; [apply (pelems_concat hash eqb eeq E HE)|]. exact (Hin Htr).
  - destruct (plook cs i Hg Hu) as (c & Hc & Hgc & Hl). rewrite Hc. cbn [of_option rbind].
    assert (He : exists it c', p_begin E c = Ok it /\ p_erase_if_any E (S (total_cap c)) p 0 c it = Ok c' /\ cgood c' /\ pelems c' = left_by p 0 (pelems c)).
    { destruct (begin_pos hash eqb eeq E HE c (proj1 Hgc) (cgood_len c Hgc)) as [[H1 H2]|(x & j & t & e & H1 & H2 & H3 & H4 & H5)].
      - exists None, c. split; [assumption|]. split; [reflexivity|]. split; [assumption|]. rewrite H2. reflexivity.
      - destruct (erase_if_pos hash eqb eeq E HE p (S (total_cap c)) 0 c x j t e (proj1 Hgc) H2 H3 ltac:(lia)) as (c' & Hr & F & L & P).
        exists (Some (x, j)), c'. split; [assumption|]. split; [assumption|]. split; [split; [assumption|rewrite L; apply Hgc]|].
        rewrite P. pose proof (front_back hash eqb eeq E HE c x t j H2) as Hfb. rewrite H4 in *.
        assert (Hf0 : front c x t j = []) by (apply (f_equal length) in Hfb; rewrite app_length in Hfb; apply nil_length_inv; lia).
        rewrite Hf0. reflexivity. }
    destruct He as (it & c' & Hb & Hr & Hc' & Hel). rewrite Hb. cbn [rbind]. rewrite Hr. cbn [rbind].
    eexists _, _, n. split; [reflexivity|]. cbn [fst snd]. split; [apply pset; assumption|].
    exists (pelems c). rewrite fmap_set. rewrite (pelems_length hash eqb eeq E HE c (proj1 Hgc)), (pelems_length hash eqb eeq E HE c' (proj1 Hc')), Hel. auto.
  - destruct Hu as [Hi Hm]. destruct (plook cs i Hg Hi) as (c & Hc & Hgc & Hl). rewrite Hc. cbn [of_option rbind].
    destruct (submap c (hash n k) Hgc) as (t & Ht & Hgt). rewrite (load_some _ _ _ Ht). cbn [rbind].
    unfold erase_key_any, find_key_any.
    destruct (find_hash_ok E HE hash eqb t k (hash n k) (S n) Hgt) as (r & n1 & Hf & Hle & Hs). rewrite Hf. cbn [rbind]. destruct r as [p|].
    + destruct Hs as (e & q & Hp & Hi' & He).
      destruct (erase_pos hash eqb eeq E HE c _ p t e (proj1 Hgc) Ht Hp) as (t' & Her & HF' & Hel & Hel'). rewrite Her. cbn [rbind].
      eexists _, _, n1. split; [reflexivity|]. cbn [fst snd]. split; [apply pset; [assumption|]; split; [assumption|rewrite insert_length; apply Hgc]|].
      exists (pelems c). split; [assumption|]. right. eexists _, e, _. split; [exact Hel|]. split; [exists q; split; [lia|assumption]|]. split; [reflexivity|].
      rewrite fmap_set, Hel'. auto.
    + cbn [rbind]. eexists _, _, n1. split; [reflexivity|]. cbn [fst snd]. rewrite (list_insert_id c) by assumption. rewrite (list_insert_id cs) by assumption.
      split; [assumption|]. exists (pelems c). split; [assumption|]. left. auto.
  - destruct Hu as [(x & Hx & Hj) Hm]. destruct (plook cs i Hg) as (c & Hc & Hgc & Hl); [apply lookup_lt_Some in Hx; assumption|].
    rewrite Hx in Hl. injection Hl as ->. rewrite Hc. cbn [of_option rbind]. unfold p_extract_nth.
    destruct (nth_ok hash eqb eeq E HE c j (proj1 Hgc) (cgood_len c Hgc) Hj) as (y & p & t & e & Hn & Hi & He & Hlen). rewrite Hn. cbn [rbind fst snd].
    rewrite (load_some _ _ _ Hi). cbn [rbind].
    destruct (erase_pos hash eqb eeq E HE c y p t e (proj1 Hgc) Hi He) as (t' & Her & HF' & Hel & Hel'). rewrite Her. cbn [rbind].
    eexists _, _, n. split; [reflexivity|]. cbn [fst snd]. split; [apply pset; [assumption|]; split; [assumption|rewrite insert_length; apply Hgc]|].
    exists (front c y t p), e, (back c y t (S p)). rewrite fmap_set, Hel'. split; [rewrite Hx, Hel; reflexivity|]. auto.
  - destruct Hu as [Hi Hm]. destruct (plook cs i Hg Hi) as (c & Hc & Hgc & Hl). rewrite Hc. cbn [of_option rbind].
    destruct (lookup_lt_is_Some_2 ns m Hm) as [nd Hnd]. rewrite Hnd. cbn [of_option rbind]. destruct nd as [e|].
    2:{ eexists _, _, n. split; [reflexivity|]. cbn [fst snd]. split; [assumption|]. exists (pelems c). split; [assumption|]. left. auto. }
    destruct (submap c (hash n (fst e)) Hgc) as (t & Ht & Hgt). rewrite (load_some _ _ _ Ht). cbn [rbind].
    destruct (emplace_any_ok hash eqb eeq E HE t (fst e) (snd e) n Hgt) as [(Hb & n1 & Hfk & Hn1)|[(y & q & p & n1 & Hem & Hp & Hq & Hk)|(t1 & p & n1 & Hem & Hn1 & Ht1 & Hp & Hperm)]].
    + rewrite Hb, Hfk. cbn [rbind]. eexists _, _, n1. split; [reflexivity|]. cbn [fst snd]. split; [assumption|].
      exists (pelems c). split; [assumption|]. right. exists e. auto 8.
    + rewrite Hem, (deref_some t p y Hp). cbn [rbind]. eexists _, _, n1. split; [reflexivity|]. cbn [fst snd].
      rewrite (list_insert_id c) by assumption. rewrite (list_insert_id cs) by assumption. rewrite (list_insert_id ns) by assumption.
      split; [assumption|]. exists (pelems c). split; [assumption|]. right. exists e. split; [reflexivity|]. right. left.
      exists y. split; [reflexivity|]. split; [apply in_pelems; eexists _, t; split; [eassumption|]; eapply slot_elem; eassumption|]. split; [exists q; auto|]. auto.
    + rewrite <- surjective_pairing in Hp, Hperm. rewrite Hem, (deref_some t1 p e Hp). cbn [rbind]. eexists _, _, n1. split; [reflexivity|]. cbn [fst snd].
      split; [apply pset; [assumption|apply cgood_set; [assumption|right; assumption]]|]. exists (pelems c). split; [assumption|]. right. exists e. split; [reflexivity|]. left.
      split; [reflexivity|]. eexists. rewrite fmap_set. split; [|auto].
      rewrite (pelems_set hash eqb eeq E HE c _ t t1 Ht), (pelems_at hash eqb eeq E HE c _ t Ht). change (pe t1 ≡ₚ e :: pe t) in Hperm. rewrite Hperm. cbn. rewrite <- Permutation_middle. reflexivity.
Qed.
Lemma pshows_pw w : psgood w -> pshows E w (pw w).
Proof.
  intros Hg. split; [|reflexivity]. unfold pw, psgood in *. cbn [fst]. induction (fst w) as [|c cs IH]; [constructor|].
  inversion Hg as [|? ? H1 H2]; subst. constructor; [|apply IH; assumption]. apply (to_list_any hash eqb eeq E HE); [apply H1|apply cgood_len; assumption].
Qed.
Lemma pshows_fun w s : psgood w -> pshows E w s -> s = pw w.
Proof.
  intros Hg [H1 H2]. destruct w as [ts ns], s as [cs ns']. unfold pw, psgood in *. cbn [fst snd] in *. subst ns'. f_equal.
  induction H1 as [|t c ts cs Hc _ IH]; [reflexivity|]. inversion Hg as [|? ? G1 G2]; subst. cbn [fmap list_fmap]. f_equal; [|apply IH; assumption].
  rewrite (to_list_any hash eqb eeq E HE t) in Hc by (apply G1 || apply cgood_len; assumption). injection Hc as <-. reflexivity.
Qed.
Lemma preach_good n w : preach hash eqb eeq E lg rw n w -> psgood w.
Proof.
  induction 1 as [a b|n w s o w' r n' Hr IH Hs Ho Hu Hx].
  - apply Forall_replicate. apply cgood_empty.
  - rewrite (pshows_fun w s IH Hs) in Hu. destruct (p_exec_multi_legal w n o IH Ho Hu) as (w2 & r2 & n2 & Hx2 & Hg & _).
    rewrite Hx in Hx2. injection Hx2 as <- <- <-. assumption.
Qed.
End Calls.

(** C77.  Whatever the objects answer, no call one thread makes corrupts a parallel container or never ends: it
    terminates without undefined behaviour, and its answer, the new contents and the nodes are among those the
    specification allows. *)
Theorem C77_any_hash_parallel : forall (K V : Type) (hash : nat -> K -> N) (eqb : nat -> K -> K -> bool)
    (eeq : nat -> K * V -> K * V -> bool) (E : env) (lg : nat) (rw : bool) (n : nat) (w : @pstate K V),
  real_env E -> lg <= 12 -> preach hash eqb eeq E lg rw n w ->
  exists s, pshows E w s /\ forall o, pargs_ok E lg o -> musable s o ->
    exists w' r n' s', p_exec_multi hash eqb eeq E lg rw n w o = Ok (w', r, n') /\ pshows E w' s' /\
      plegal rw (said eqb n n') (saw eeq n n') s o r s'.
Proof.
  intros K V hash eqb eeq E lg rw n w HE Hlg Hr. pose proof (real_env_ok E HE) as HE'.
  pose proof (preach_good hash eqb eeq E HE' lg Hlg rw n w Hr) as Hg.
  exists (pw w). split; [apply (pshows_pw hash eqb eeq E HE' lg Hlg rw); assumption|]. intros o Ho Hu.
  destruct (p_exec_multi_legal hash eqb eeq E HE' lg Hlg rw w n o Hg Ho Hu) as (w' & r & n' & Hx & Hg' & Hl).
  exists w', r, n', (pw w'). split; [assumption|]. split; [apply (pshows_pw hash eqb eeq E HE' lg Hlg rw); assumption|assumption].
Qed.
Print Assumptions C77_any_hash_parallel.

(** C77, conservation: calls that only move elements about neither lose nor duplicate one, also when they throw. *)
Lemma plegal_conserves {K V} rw said same (s : @state K V) o r s' : musable s o -> moves_only s o -> plegal rw said same s o r s' -> everything s' ≡ₚ everything s.
Proof.
  intros Hu Hm Hl. destruct s as [cs ns], s' as [cs' ns'].
  destruct o as [i o|d s|a b|d s|d s|a b|i p|i k m|i j m|i m]; try (eapply (legal_conserves said same); [exact Hu|exact Hm|exact Hl]); try contradiction.
  - cbn [plegal] in Hl. destruct Hl as (c & x & c' & Hc & -> & Hl & -> & ->). unfold everything. cbn [fst snd]. f_equiv.
    assert (Hp : c' ≡ₚ c).
    { destruct o; cbn [moves_only plegal1 legal] in Hm, Hl; try contradiction.
      - destruct Hl as [-> _]. reflexivity.
      - apply Hl.
      - apply Hl.
      - destruct Hl as [[_ Hl]|[_ ->]]; [assumption|reflexivity].
      - destruct Hl as [_ ->]. reflexivity.
      - destruct Hl as [_ ->]. reflexivity. }
    apply (Permutation_app_inv_l c). rewrite (concat_insert cs i c c' Hc), Hp. reflexivity.
  - cbn [plegal] in Hl. destruct Hl as (ca & cb & x & _ & _ & -> & -> & _). reflexivity.
Qed.
Theorem C77_parallel_conserves : forall (K V : Type) (hash : nat -> K -> N) (eqb : nat -> K -> K -> bool)
    (eeq : nat -> K * V -> K * V -> bool) (E : env) (lg : nat) (rw : bool) (n : nat) (w : @pstate K V) (s : @state K V) (o : mcall K V),
  real_env E -> lg <= 12 -> preach hash eqb eeq E lg rw n w -> pshows E w s -> pargs_ok E lg o -> musable s o -> moves_only s o ->
  exists w' r n' s', p_exec_multi hash eqb eeq E lg rw n w o = Ok (w', r, n') /\ pshows E w' s' /\ everything s' ≡ₚ everything s.
Proof.
  intros K V hash eqb eeq E lg rw n w s o HE Hlg Hr Hs Ho Hu Hm.
  destruct (C77_any_hash_parallel K V hash eqb eeq E lg rw n w HE Hlg Hr) as (s0 & Hs0 & H).
  pose proof (real_env_ok E HE) as HE'. pose proof (preach_good hash eqb eeq E HE' lg Hlg rw n w Hr) as Hg.
  rewrite (pshows_fun hash eqb eeq E HE' lg Hlg rw w s Hg Hs) in *. rewrite (pshows_fun hash eqb eeq E HE' lg Hlg rw w s0 Hg Hs0) in *.
  destruct (H o Ho Hu) as (w' & r & n' & s' & Hx & Hs' & Hl). exists w', r, n', s'. split; [assumption|]. split; [assumption|].
  eapply plegal_conserves; eassumption.
Qed.
Print Assumptions C77_parallel_conserves.

(** C77, copying assignment seen through with_submap: there is a submap before which all submaps are copies of the
    source's, and from which on all are what they were; if the call did not throw it is the end. *)
Theorem C77_copy_submaps : forall (K V : Type) (hash : nat -> K -> N) (eqb : nat -> K -> K -> bool)
    (eeq : nat -> K * V -> K * V -> bool) (E : env) (lg : nat) (rw : bool) (n : nat) (w : @pstate K V) (d s : nat) (cd cs : list (table K V)),
  real_env E -> lg <= 12 -> preach hash eqb eeq E lg rw n w -> fst w !! d = Some cd -> fst w !! s = Some cs ->
  exists w' r n' c', p_exec_multi hash eqb eeq E lg rw n w (MCopy d s) = Ok (w', r, n') /\ fst w' !! d = Some c' /\ length c' = 2 ^ lg /\
    exists k, (r = RThrow /\ k < 2 ^ lg \/ r = RUnit /\ k = 2 ^ lg) /\
      (forall j t, j < k -> cs !! j = Some t -> exists t' l l', c' !! j = Some t' /\ to_list E t = Ok l /\ to_list E t' = Ok l' /\ l' ≡ₚ l) /\
      (forall j, k <= j -> c' !! j = cd !! j).
Proof.
  intros K V hash eqb eeq E lg rw n w d s cd cs HE Hlg Hr Hd Hs. pose proof (real_env_ok E HE) as HE'.
  pose proof (preach_good hash eqb eeq E HE' lg Hlg rw n w Hr) as Hg. destruct w as [ts ns]. cbn [fst] in *.
  pose proof (Forall_lookup_1 _ _ _ _ Hg Hd) as [Fd Ld]. pose proof (Forall_lookup_1 _ _ _ _ Hg Hs) as [Fs Ls].
  cbn [p_exec_multi]. rewrite Hd, Hs. cbn [of_option rbind].
  destruct (copy_parts hash eqb eeq E HE' cd Fd cs n Fs ltac:(congruence)) as (c' & b & n' & Hx & _ & L & _).
  destruct (copy_submaps hash eqb eeq E HE' cd cs n Fs ltac:(congruence) _ _ _ Hx) as (k & K1 & K2 & K3). rewrite Hx. cbn [rbind].
  eexists _, _, n', c'. split; [reflexivity|]. cbn [fst]. split; [apply list_lookup_insert; apply lookup_lt_Some in Hd; assumption|].
  rewrite L, Ld in *. split; [reflexivity|]. exists k. split; [destruct b; [left|right]; auto|]. split; [|exact K3].
  intros j t Hj Ht. destruct (K2 j t Hj Ht) as (t' & H1 & H2 & H3). exists t', (pe t), (pe t'). split; [assumption|].
  split; [apply (to_list_elems hash eqb E HE'); eapply Forall_lookup_1; eassumption|]. split; [apply (to_list_elems hash eqb E HE'); assumption|assumption].
Qed.
Print Assumptions C77_copy_submaps.

(** The objects of [C76_example], on containers of four submaps. *)
Fixpoint pgo (hash : nat -> N -> N) (eqb : nat -> N -> N -> bool) eeq rw (n : nat) (w : @pstate N N) (os : list (mcall N N)) : option (nat * @pstate N N * list (manswer N N)) :=
  match os with
  | [] => Some (n, w, [])
  | o :: os' =>
      if musableb (pw w) o && no_args o then
        match p_exec_multi hash eqb eeq ex_env 2 rw n w o with
        | Ok (w', r, n') => match pgo hash eqb eeq rw n' w' os' with Some (n2, w2, rs) => Some (n2, w2, r :: rs) | None => None end
        | _ => None
        end
      else None
  end.
Lemma pgo_reach hash eqb eeq rw os : forall n w n' w' rs, preach hash eqb eeq ex_env 2 rw n w -> pgo hash eqb eeq rw n w os = Some (n', w', rs) -> preach hash eqb eeq ex_env 2 rw n' w'.
Proof.
  assert (Hlg : 2 <= 12) by lia.
  induction os as [|o os IH]; intros n w n' w' rs Hr H; cbn [pgo] in H; [injection H as <- <- <-; assumption|].
  destruct (musableb (pw w) o && no_args o) eqn:Hb; [|discriminate]. apply andb_true_iff in Hb. destruct Hb as [Hb Ha].
  destruct (p_exec_multi hash eqb eeq ex_env 2 rw n w o) as [[[w1 r] n1]| | | |] eqn:Hx; try discriminate.
  destruct (pgo hash eqb eeq rw n1 w1 os) as [[[n2 w2] rs2]|] eqn:Hgo; [|discriminate]. injection H as <- <- <-.
  eapply IH; [|exact Hgo]. eapply preach_call; [exact Hr| | |apply musableb_ok; exact Hb|exact Hx].
  - apply (pshows_pw hash eqb eeq ex_env (real_env_ok _ ex_env_real) 2 Hlg rw). apply (preach_good hash eqb eeq ex_env (real_env_ok _ ex_env_real) 2 Hlg rw n). assumption.
  - destruct o as [i o| | | | | | | | |]; try exact I. destruct o; try exact I; discriminate.
Qed.
Definition pstart : @pstate N N := (replicate 3 (p_empty 2), replicate 2 None).
Definition pend rw os : option (nat * @pstate N N * list (manswer N N)) := pgo wild_hash wild_eqb wild_eeq rw 0 pstart os.
Lemma pend_reach rw os n w rs : pend rw os = Some (n, w, rs) -> preach wild_hash wild_eqb wild_eeq ex_env 2 rw n w.
Proof. unfold pend. apply pgo_reach. apply preach_start. Qed.
Definition wild_pops : list (mcall N N) :=
  map (fun k => MOn 0 (CEmplace k k)) (nums 0 20) ++ map (fun k => MOn 1 (CAssign k 7%N)) (nums 10 20) ++
  [MMerge 0 1; MSwap 0 1; MMove 2 0; MCopy 0 1; MEqual 0 1; MEraseIf 1 (fun j _ => j mod 3 =? 0); MExtractNth 1 1 0; MInsertNode 0 0;
   MOn 0 (CEraseNth 3); MOn 0 CCopy; MExtractNth 1 4 1; MMerge 1 2].
Example C77_example : exists n w rs, pend true wild_pops = Some (n, w, rs) /\ preach wild_hash wild_eqb wild_eeq ex_env 2 true n w /\
  existsb (fun r => match r with RInserted true _ => true | _ => false end) rs = true.
Proof.
  assert (C : match pend true wild_pops with
    | Some (_, w, rs) => existsb (fun r => match r with RInserted true _ => true | _ => false end) rs
    | None => false end = true) by (vm_compute; reflexivity).
  destruct (pend true wild_pops) as [[[n w] rs]|] eqn:H; [|discriminate C]. exists n, w, rs. split; [reflexivity|].
  split; [exact (pend_reach _ _ _ _ _ H)|exact C].
Qed.
Print Assumptions C77_example.

(** What is lost.  Under a read-write lock, erase(key) may answer 1 and erase nothing: it does so when the equality
    object says yes to the first lookup and no to the second. *)
Theorem C77_erase_count_refuted : exists (eqb : nat -> N -> N -> bool) n w rs,
  pgo (fun _ k => k) eqb wild_eeq true 0 pstart [MOn 0 (CEmplace 1%N 1%N); MOn 0 (CErase 1%N); MOn 0 CSize] = Some (n, w, rs) /\
  rs = [RCall (AInserted true (1, 1)%N); RCall (ACount 1); RCall (ACount 1)].
Proof. exists (fun n a b => N.eqb a b && (n <? 3)). eexists _, _, _. split; vm_compute; reflexivity. Qed.
Print Assumptions C77_erase_count_refuted.
