(** Programs over node containers: the invariant along a run, what [find] shows, and the destructors at the end. *)
From stdpp Require Import list list_numbers.
From Coq Require Import NArith ZArith Lia ZifyBool ZifyNat.
From Verif.Common Require Import Res Word.
From Verif.Swiss Require Import Group Model Probe Inv TableInv Resize Ops MapSpec History.
From Verif.Swiss Require Import Multi MultiSpec MultiProof MultiHistory Node NodeSpec NodeProof NodeFacts.
Local Open Scope nat_scope.
Local Open Scope res_scope.

Section Run.
Context {K V : Type} (hash : K -> N) (eqb : K -> K -> bool) (eeq : K * V -> K * V -> bool) (E : env).
Notation elt := (K * V)%type.
Notation ptr := (K * nat)%type.
Notation ptable := (table K nat).
Notation heap := (list (cell elt)).
Notation R := (@History.R K nat hash eqb E).
Notation nstate := (@nstate K V).
Notation nexec := (nexec hash eqb eeq E).
Notation nrun := (nrun hash eqb eeq E).

Definition nstart (a b : nat) : nstate := (replicate a empty_table, replicate b None, []).
Definition heap_of (s : nstate) : heap := snd s.

Context (HE : env_ok E) (HK : KeyOK hash eqb) (HQ : EltOK eqb eeq).
Set Default Proof Using "HE HK HQ".

(* the state of a run: contents [ms], lost pointers [L] *)
Record inv (a b : nat) (s : nstate) (ms : list (list ptr)) (L : list ptr) : Prop := {
  iv_maps : Forall2 R (fst (fst s)) ms;
  iv_heap : heap_ok (owned ms (snd (fst s)) L) (heap_of s);
  iv_a : length (fst (fst s)) = a;
  iv_b : length (snd (fst s)) = b
}.
Lemma inv_start a b : inv a b (nstart a b) (replicate a []) [].
Proof.
  constructor; cbn.
  - apply start_ok.
  - replace (owned _ _ _) with (@nil ptr); [apply heap_ok_nil|]. unfold owned. rewrite app_nil_r.
    assert (Hc : concat (replicate a (@nil ptr)) = []) by (induction a; cbn; auto). rewrite Hc.
    assert (Hn : elems (replicate b (@None ptr)) = []) by (clear; induction b; cbn; auto). rewrite Hn. reflexivity.
  - apply replicate_length.
  - apply replicate_length.
Qed.
Lemma inv_step a b s ms L o : inv a b s ms L -> nop_ok E a b o ->
  exists s' r ms' L', nexec s o = Ok (s', r) /\ inv a b s' ms' L' /\
    p_step eqb eeq (ms, snd (fst s), heap_of s, L) o r (ms', snd (fst s'), heap_of s', L').
Proof.
  intros [H1 H2 H3 H4] Ho. destruct s as [[ts ns] H]. cbn in *. subst a b.
  destruct (nexec_ok hash eqb eeq E HE HK HQ ts ns H ms L o H1 H2 Ho) as (ts' & ns' & H' & r & ms' & L' & G1 & G2 & G3 & G4 & G5 & G6).
  exists (ts', ns', H'), r, ms', L'. split; [assumption|]. split; [constructor; assumption|assumption].
Qed.
Lemma inv_distinct a b s ms L : inv a b s ms L -> Forall (distinct eqb) ms.
Proof using HE HK.
  intros [H1 _ _ _]. clear -H1 HE HK. induction H1 as [|t m ts ms Hr _ IH]; constructor; [|assumption]. eapply (R_distinct hash eqb E HE HK). eassumption.
Qed.
Lemma nop_lens (a b : nat) (o : nop K V) : nop_ok E a b o -> nop_ok_lens a b o.
Proof using. clear. destruct o as [[]|]; cbn; tauto. Qed.
Lemma nop_len (a b : nat) (o : nop K V) : nop_ok E a b o -> nop_ok_len a o.
Proof using. clear. destruct o as [[]|]; cbn; tauto. Qed.

Lemma p_step_lost ms ns H L o r ms' ns' H' L' : p_step eqb eeq (ms, ns, H, L) o r (ms', ns', H', L') -> length L' = lost [o] [r] + length L.
Proof using.
  clear. destruct o as [o|i k v]; cbn [p_step lost].
  - intros [-> _]. reflexivity.
  - intros (_ & Hp). destruct (s_find eqb (mget ms i) k).
    + destruct Hp as ((y & _ & ->) & _ & _ & ->). reflexivity.
    + destruct Hp as (_ & [(-> & _ & ->)|(-> & _ & ->)]); reflexivity.
Qed.
Lemma lost_cons o (r : mout K (nat * V)) os rs : lost (o :: os) (r :: rs) = lost [o] [r] + lost os rs.
Proof using. clear. destruct o as [o|i k v]; [reflexivity|]. destruct r as [[]| | | | |]; reflexivity. Qed.

Lemma nrun_ok a b os : forall s ms L cs cns, inv a b s ms L -> Forall (nop_ok E a b) os ->
  shown (heap_of s) ms cs -> nshown (heap_of s) (snd (fst s)) cns ->
  exists s' rs ms' L' cs' cns', nrun s os = Ok (s', rs) /\ inv a b s' ms' L' /\ length L' = lost os rs + length L /\
    shown (heap_of s') ms' cs' /\ nshown (heap_of s') (snd (fst s')) cns' /\
    s_mrun eqb eeq (cs, cns) (map flat os) (map plain rs) (cs', cns').
Proof.
  induction os as [|o os IH]; intros s ms L cs cns Hi Ho Hs Hn.
  - exists s, [], ms, L, cs, cns. cbn. repeat (split; [first [reflexivity|assumption]|]). constructor.
  - inversion Ho as [|? ? Ho1 Ho2]; subst.
    destruct (inv_step a b s ms L o Hi Ho1) as (s1 & r & ms1 & L1 & He & Hi1 & Hp).
    destruct (p_step_contents hash eqb eeq HK ms (snd (fst s)) (heap_of s) L o r ms1 (snd (fst s1)) (heap_of s1) L1 cs cns) as (cs1 & cns1 & Hs1 & Hn1 & Hst).
    + apply (iv_heap _ _ _ _ _ Hi).
    + apply (iv_heap _ _ _ _ _ Hi1).
    + eapply inv_distinct; eassumption.
    + assumption.
    + assumption.
    + assumption.
    + rewrite <- (Forall2_length _ _ _ (iv_maps _ _ _ _ _ Hi)), (iv_a _ _ _ _ _ Hi). eapply nop_len; eassumption.
    + destruct (IH s1 ms1 L1 cs1 cns1 Hi1 Ho2 Hs1 Hn1) as (s2 & rs & ms2 & L2 & cs2 & cns2 & Hr & Hi2 & HL & Hs2 & Hn2 & Hsr).
      exists s2, (r :: rs), ms2, L2, cs2, cns2. cbn [nrun Node.nrun]. rewrite He. cbn [rbind]. rewrite Hr. cbn [rbind].
      split; [reflexivity|]. split; [assumption|]. split; [rewrite lost_cons, HL; apply p_step_lost in Hp; lia|].
      split; [assumption|]. split; [assumption|]. cbn [map]. econstructor; eassumption.
Qed.
Lemma nrun_start a b os : Forall (nop_ok E a b) os ->
  exists s rs ms L cs cns, nrun (nstart a b) os = Ok (s, rs) /\ inv a b s ms L /\ length L = lost os rs /\
    shown (heap_of s) ms cs /\ nshown (heap_of s) (snd (fst s)) cns /\
    s_mrun eqb eeq (replicate a [], replicate b None) (map flat os) (map plain rs) (cs, cns).
Proof.
  intros Ho. destruct (nrun_ok a b os (nstart a b) (replicate a []) [] (replicate a []) (replicate b None)) as (s & rs & ms & L & cs & cns & H1 & H2 & H3 & H4).
  - apply inv_start.
  - assumption.
  - clear. unfold shown. induction a; cbn; constructor; [constructor|assumption].
  - clear. unfold nshown. cbn. induction b; cbn; constructor; [constructor|assumption].
  - exists s, rs, ms, L, cs, cns. split; [assumption|]. split; [assumption|]. split; [cbn in H3; lia|assumption].
Qed.

(** ** What find shows *)
Lemma inv_find a b s ms L i k : inv a b s ms L -> i < a ->
  exists y, nexec s (NOp (MOne i (OFind k))) = Ok (s, MR (RFound y)) /\
    match s_find eqb (mget ms i) k with Some x => exists z, leads (heap_of s) x z /\ y = Some z | None => y = None end.
Proof.
  intros Hi Hia. destruct (inv_step a b s ms L (NOp (MOne i (OFind k))) Hi) as (s' & r & ms' & L' & He & Hi' & Hp); [split; [assumption|exact I]|].
  cbn [p_step] in Hp. destruct Hp as (_ & r0 & m' & -> & Hp & -> & Hns). cbn [p_one] in Hp. destruct Hp as (Hr & -> & HH).
  assert (s' = s) as ->.
  { destruct s as [[ts ns] H]. cbn [nexec Node.nexec] in He. destruct (load ts i) as [t| | | |] eqn:Hl; try discriminate. cbn [rbind exec_n] in He.
    assert (Hin : <[i := t]> ts = ts).
    { apply list_insert_id. unfold load, of_option in Hl. destruct (ts !! i); [congruence|discriminate]. }
    destruct (find_key hash eqb E t k) as [[p|]| | | |]; try discriminate; cbn [rbind] in He.
    - destruct (deref t p); try discriminate; cbn [rbind] in He. destruct (read H _); try discriminate; cbn [rbind] in He.
      injection He as <- _. rewrite Hin. reflexivity.
    - injection He as <- _. rewrite Hin. reflexivity. }
  destruct (s_find eqb (mget ms i) k) as [x|].
  - destruct Hr as (z & Hz & ->). exists (Some z). eauto.
  - subst r0. exists None. auto.
Qed.

(** An element at a place, as a user sees it: find of its key gives its address and value; the node handle leads to it. *)
Definition at_place (s : nstate) (pl : place) (a : nat) (e : elt) : Prop :=
  match pl with
  | InMap i => nexec s (NOp (MOne i (OFind (fst e)))) = Ok (s, MR (RFound (Some (fst e, (a, snd e)))))
  | InHandle n => snd (fst s) !! n = Some (Some (fst e, a)) /\ heap_of s !! a = Some (Live e)
  end.
Lemma at_place_iff a b s ms L pl c e : inv a b s ms L -> at_place s pl c e <-> at_p ms (snd (fst s)) pl (fst e, c) /\ heap_of s !! c = Some (Live e).
Proof.
  intros Hi. destruct pl as [i|n]; cbn [at_place at_p].
  - destruct (decide (i < a)) as [Hia|Hia].
    + destruct (inv_find a b s ms L i (fst e) Hi Hia) as (y & Hex & Hy). rewrite Hex.
      pose proof (inv_distinct _ _ _ _ _ Hi) as Hd.
      assert (Hdi : distinct eqb (mget ms i)).
      { unfold mget. destruct (nth_in_or_default i ms []) as [Hin|Heq]; [|rewrite Heq; exact I]. rewrite Forall_forall in Hd. apply Hd, elem_of_list_In. assumption. }
      split.
      * intros [= ->]. destruct (s_find eqb (mget ms i) (fst e)) as [x|] eqn:Hf; [|discriminate]. destruct Hy as (z & (v & Hlv & Hz) & Hyz).
        subst z. injection Hyz as Hz1 Hz2 Hz3. apply (s_find_some eqb) in Hf. destruct Hf as [Hin _]. destruct x as [kx ax], e as [ke ve]. cbn in *. subst. auto.
      * intros [Hin Hlv]. assert (Hf : s_find eqb (mget ms i) (fst e) = Some (fst e, c)) by (apply (s_find_in hash eqb HK); [assumption|assumption|apply (ko_refl hash eqb HK)]).
        rewrite Hf in Hy. destruct Hy as (z & (v & Hlv' & ->) & ->). cbn in *. rewrite Hlv in Hlv'. injection Hlv' as He. rewrite He. reflexivity.
    + split.
      * intros Hex. exfalso. destruct s as [[ts ns] H]. cbn [nexec Node.nexec] in Hex. unfold load in Hex. pose proof (iv_a _ _ _ _ _ Hi) as Ha. cbn in Ha.
        rewrite (lookup_ge_None_2 ts i) in Hex by lia. discriminate.
      * intros [Hin _]. apply at_len in Hin. rewrite <- (Forall2_length _ _ _ (iv_maps _ _ _ _ _ Hi)), (iv_a _ _ _ _ _ Hi) in Hin. contradiction.
  - unfold nget. rewrite nth_lookup. destruct (snd (fst s) !! n) as [o|]; cbn; [|split; intros [? _]; discriminate].
    split; intros [H1 H2]; split; congruence.
Qed.

(** ** Counting *)
Definition is_live (c : cell elt) : bool := match c with Live _ => true | _ => false end.
Definition is_raw (c : cell elt) : bool := match c with Raw => true | _ => false end.
Definition live (H : heap) : nat := length (List.filter is_live H).
Definition raw (H : heap) : nat := length (List.filter is_raw H).
Lemma live_count (H : heap) : live H = length (List.filter (fun a => match H !! a with Some (Live _) => true | _ => false end) (seq 0 (length H))).
Proof using.
  clear. unfold live. induction H as [|c H IH] using rev_ind; [reflexivity|].
  rewrite List.filter_app, app_length, app_length, seq_app, List.filter_app, app_length. cbn [length seq List.filter Nat.add].
  rewrite (List.filter_ext_in (fun a : nat => match (H ++ [c]) !! a with Some (Live _) => true | _ => false end) (fun a : nat => match H !! a with Some (Live _) => true | _ => false end)).
  - rewrite IH. f_equal. rewrite lookup_app_r by lia. rewrite Nat.sub_diag. cbn. destruct c; reflexivity.
  - intros a Ha. apply in_seq in Ha. rewrite lookup_app_l by lia. reflexivity.
Qed.
Lemma heap_ok_live P (H : heap) : heap_ok P H -> live H = length P /\ raw H = 0.
Proof using.
  clear. intros HO. split.
  - rewrite live_count. rewrite <- (map_length snd P). apply Permutation_length. apply NoDup_Permutation.
    + apply NoDup_ListNoDup, List.NoDup_filter, seq_NoDup.
    + apply (ho_nodup _ _ HO).
    + intros a. rewrite !elem_of_list_In, filter_In, in_seq. split.
      * intros [_ Ha]. destruct (H !! a) as [[| |]|] eqn:Hl; try discriminate. eapply ho_own; eassumption.
      * intros Ha. apply in_map_iff in Ha. destruct Ha as (x & <- & Hx). destruct (ho_live _ _ HO x Hx) as [v Hv].
        rewrite Hv. apply lookup_lt_Some in Hv. split; [lia|reflexivity].
  - unfold raw. destruct (List.filter is_raw H) as [|c l] eqn:Hf; [reflexivity|exfalso].
    assert (Hin : In c (List.filter is_raw H)) by (rewrite Hf; left; reflexivity). apply filter_In in Hin. destruct Hin as [Hin Hc].
    destruct c; try discriminate. apply elem_of_list_In, elem_of_list_lookup in Hin. destruct Hin as [a Ha]. eapply ho_raw; eassumption.
Qed.

(** ** The destructors *)
Lemma drop_nodes_ok ns : forall P (H : heap), heap_ok (elems ns ++ P) H -> exists H', drop_nodes H ns = Ok H' /\ heap_ok P H'.
Proof using.
  clear. induction ns as [|[x|] ns IH]; intros P H HO; cbn [drop_nodes drop_node rbind].
  - eauto.
  - change (elems (Some x :: ns) ++ P) with (x :: elems ns ++ P) in HO. apply heap_ok_del in HO. destruct HO as [-> HO]. cbn [rbind]. apply IH. assumption.
  - apply IH. assumption.
Qed.
Lemma destroy_tables_ok ts ms : Forall2 R ts ms -> forall P (H : heap), heap_ok (concat ms ++ P) H -> exists H', destroy_tables H ts = Ok H' /\ heap_ok P H'.
Proof using HE HK.
  induction 1 as [|t m ts ms Hr _ IH]; intros P H HO; cbn [destroy_tables].
  - eauto.
  - cbn [concat] in HO. rewrite <- app_assoc in HO. destruct (R_destroy hash eqb E HE HK t m _ H Hr HO) as (H' & -> & HO' & _). cbn [rbind]. apply IH. assumption.
Qed.
Lemma teardown_ok a b s ms L : inv a b s ms L -> exists H', teardown s = Ok H' /\ heap_ok L H'.
Proof using HE HK.
  intros [H1 H2 _ _]. destruct s as [[ts ns] H]. cbn in *. unfold teardown.
  destruct (drop_nodes_ok ns (concat ms ++ L) H) as (Ha & -> & HOa).
  - eapply heap_ok_perm; [|exact H2]. unfold owned. rewrite !app_assoc. apply Permutation_app_tail, Permutation_app_comm.
  - cbn [rbind]. eapply destroy_tables_ok; eassumption.
Qed.
End Run.
