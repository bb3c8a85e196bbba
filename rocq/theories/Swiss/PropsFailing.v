(** Property theorems C12 over histories: element constructors throw any number of times, and the program goes on
    using the table. *)
From stdpp Require Import list.
From Coq Require Import Arith NArith ZArith Lia.
From Verif.Common Require Import Res Word.
From Verif.Swiss Require Import Group Model Inv TableInv MapSpec History Reserve PropsTable Failing FailingProof.
Local Open Scope nat_scope.
Local Open Scope res_scope.

(** C12, the part that holds.  Take any history of calls on an empty table in which any insertions fail because the
    constructor throws, such that size() never exceeds the bucket count when a call is made.  Then no call reads outside the
    table or fails to return, every call answers as on a map that the failed insertions did not touch, except that
    size() counts every insertion that has failed since the last clear().
    Missing: size() itself, and histories in which size() exceeds the bucket count, where the claim is false (below). *)
Theorem C12_histories_partial : forall (K V : Type) (hash : K -> N) (eqb : K -> K -> bool) (E : env) (os : list (fop K V)),
  real_env E -> KeyOK hash eqb -> Forall (fop_ok E) os -> calm hash eqb E empty_table os ->
  exists t rs m n, frun hash eqb E empty_table os = Ok (t, rs) /\ f_run eqb ([], 0) os rs (m, n) /\
    t_size t = length m + n /\ exists l, to_list E t = Ok l /\ Permutation l m.
Proof.
  intros K V hash eqb E os HE0 HK Ho Hc. pose proof (real_env_ok E HE0) as HE.
  destruct (frun_ok hash eqb E HE HK os empty_table ([], 0) (FR_empty hash eqb E) Ho Hc) as (t & rs & [m n] & Hr & Hf & Hg & Hp & Hs).
  exists t, rs, m, n. split; [assumption|]. split; [assumption|]. split; [assumption|].
  exists (elems (t_slots t)). split; [apply (ptraverse hash eqb E HE HK); assumption|assumption].
Qed.
Print Assumptions C12_histories_partial.

(** C12, an unconditional part: when the history contains no erase, size() never exceeds the bucket count, so the claim
    above holds of every such history.
    Missing: as above. *)
Theorem C12_histories_without_erase_partial : forall (K V : Type) (hash : K -> N) (eqb : K -> K -> bool) (E : env) (os : list (fop K V)),
  real_env E -> KeyOK hash eqb -> Forall (fop_ok E) os -> (forall k, ~ In (FCall (OErase k)) os) ->
  exists t rs m n, frun hash eqb E empty_table os = Ok (t, rs) /\ f_run eqb ([], 0) os rs (m, n) /\
    t_size t = length m + n /\ t_size t <= t_cap t /\ exists l, to_list E t = Ok l /\ Permutation l m.
Proof.
  intros K V hash eqb E os HE0 HK Ho Hn. pose proof (real_env_ok E HE0) as HE.
  destruct (frun_noerase hash eqb E HE HK os empty_table ([], 0) (FR_empty hash eqb E) (or_introl eq_refl) Ho) as (t & rs & [m n] & Hr & Hf & (Hg & Hp & Hs) & Hc).
  { apply List.Forall_forall. intros [[]|] Hin; cbn; try exact I. exact (Hn _ Hin). }
  exists t, rs, m, n. split; [assumption|]. split; [assumption|]. split; [assumption|]. split; [assumption|].
  exists (elems (t_slots t)). split; [apply (ptraverse hash eqb E HE HK); assumption|assumption].
Qed.
Print Assumptions C12_histories_without_erase_partial.

(** C12 is false of memory use: insertions that all fail make an empty table allocate as much as if they had all
    succeeded. *)
Theorem C12_failures_use_memory_refuted : forall (K V : Type) (hash : K -> N) (eqb : K -> K -> bool) (E : env) (ks : list K) (t : table K V),
  real_env E -> KeyOK hash eqb ->
  frun (V := V) hash eqb E empty_table (map FThrow ks) = Ok (t, map (fun _ => FThrew) ks) ->
  to_list E t = Ok [] /\ t_size t = length ks /\ length ks <= t_cap t.
Proof.
  intros K V hash eqb E ks t HE0 HK Hr.
  destruct (C12_histories_without_erase_partial K V hash eqb E (map FThrow ks) HE0 HK) as (t' & rs & m & n & Hr' & Hf & Hs & Hc & l & Hl & Hp).
  { apply Forall_forall. intros o Hin. apply elem_of_list_fmap in Hin. destruct Hin as (k & -> & _). exact I. }
  { intros k Hin. apply in_map_iff in Hin. destruct Hin as (x & Hx & _). discriminate. }
  rewrite Hr in Hr'. injection Hr' as <- <-.
  assert (G : forall ks m0 n0 m n, f_run (V := V) eqb (m0, n0) (map FThrow ks) (map (fun _ => FThrew) ks) (m, n) -> m = m0 /\ n = n0 + length ks).
  { clear. induction ks as [|k ks IH]; intros m0 n0 m n H; inversion H; subst; cbn [length]; [split; [reflexivity|lia]|].
    destruct st1 as [m1 n1]. match goal with H : f_step _ _ _ _ _ |- _ => cbn [f_step] in H; destruct H as [-> Hst] end.
    destruct (s_find eqb m0 k); [destruct Hst as [? _]; discriminate|]. destruct Hst as [[_ ->]|[? _]]; [|discriminate].
    match goal with H : f_run _ _ (map _ _) _ _ |- _ => destruct (IH _ _ _ _ H) as [-> ->] end. split; [reflexivity|lia]. }
  destruct (G ks [] 0 m n Hf) as [-> ->]. apply Permutation_sym, Permutation_nil in Hp as ->. cbn [length plus] in *.
  split; [assumption|]. split; [assumption|lia].
Qed.
Print Assumptions C12_failures_use_memory_refuted.
Example C12_memory_example : exists t : table N N,
  frun ex_hash N.eqb ex_env empty_table (map FThrow (replicate 100 7%N)) = Ok (t, map (fun _ => FThrew) (replicate 100 7%N)) /\ t_cap t = 127.
Proof. eexists. split; vm_compute; reflexivity. Qed.

(** a history of 20 insertions, 10 failures, two erasures and 10 more failures is within the hypothesis *)
Example C12_histories_example : exists (os : list (fop N N)) t rs, Forall (fop_ok ex_env) os /\ calm ex_hash N.eqb ex_env empty_table os /\
  os = map FCall (ins (nums 0 20)) ++ replicate 10 (FThrow 49%N) ++ [FCall (OErase 3%N); FCall (OErase 4%N)] ++ replicate 10 (FThrow 50%N) ++ [FCall OSize; FCall OTraverse] /\
  frun ex_hash N.eqb ex_env empty_table os = Ok (t, rs) /\ last rs = Some (FOut (RElems (default [] (match to_list ex_env t with Ok l => Some l | _ => None end)))) /\
  t_size t = 38 /\ rs !! 42 = Some (FOut (RSize 38)).
Proof.
  eexists. do 2 eexists. split; [|split; [|split; [reflexivity|split; [vm_compute; reflexivity|split; [vm_compute; reflexivity|split; vm_compute; reflexivity]]]]].
  - apply Forall_forall. intros o Ho. vm_compute in Ho. repeat (apply elem_of_cons in Ho; destruct Ho as [->|Ho]; [exact I|]). apply elem_of_nil in Ho. destruct Ho.
  - vm_compute. repeat split; lia.
Qed.

(** ** A lookup that never ends *)
Section Stuck.
Context {K V : Type} (hash : K -> N) (eqb : K -> K -> bool) (E : env) (t : table K V) (k : K).
(** a probe at [off] finds neither the key nor an empty slot *)
Definition stuck_at (off : nat) : bool :=
  match window E (t_ctrl t) off with
  | Ok w => match match_loop eqb t k off (g_match (e_group E) w (H2 (hash k))) with
            | Ok None => negb (g_any_empty (e_group E) w)
            | _ => false
            end
  | _ => false
  end.
Lemma stuck_forever i : t_cap t = 2 ^ i - 1 -> probe_start (hash k) (t_cap t) <= t_cap t -> forallb stuck_at (seq 0 (S (t_cap t))) = true ->
  forall fuel, find_fuel hash eqb E fuel t k = Loop.
Proof using.
  intros Hi H0 Hall fuel. rewrite forallb_forall in Hall.
  assert (Hland : forall x, Nat.land x (t_cap t) <= t_cap t).
  { intros x. rewrite Hi. replace (2 ^ i - 1) with (Nat.ones i) by (rewrite Nat.ones_equiv; lia).
    rewrite Nat.land_ones, Nat.ones_equiv. pose proof (Nat.mod_upper_bound x (2 ^ i) ltac:(apply Nat.pow_nonzero; lia)). lia. }
  cut (forall off idx, off <= t_cap t -> find_loop eqb E fuel t k (hash k) off idx = Loop).
  { intros H. apply H. assumption. }
  induction fuel as [|f IH]; intros off idx Hoff; [reflexivity|]. cbn [find_loop].
  assert (Hst : stuck_at off = true) by (apply Hall; apply in_seq; lia). unfold stuck_at in Hst.
  destruct (window E (t_ctrl t) off) as [w| | | |]; try discriminate. cbn [rbind].
  destruct (match_loop eqb t k off _) as [[p|]| | | |]; try discriminate. cbn [rbind].
  destruct (g_any_empty (e_group E) w); [discriminate|]. unfold probe_next. apply IH. apply Hland.
Qed.
End Stuck.

Definition inflate : list (fop N N) :=
  map FCall (ins (nums 0 20)) ++ [FCall (OErase 3%N)] ++ replicate 60 (FThrow 49%N) ++ map FCall (ins (nums 50 44)).
Definition inflated : table N N := match frun ex_hash N.eqb ex_env empty_table inflate with Ok (t, _) => t | _ => empty_table end.
(** C12 is false of what happens afterwards: 20 insertions, an erase, 60 insertions that fail and 44 that succeed leave a
    table all of whose buckets are in use, and the lookup of an absent key never returns. *)
Theorem C12_histories_refuted : exists (os : list (fop N N)) (k : N) (t : table N N) (rs : list (fout N N)),
  Forall (fop_ok ex_env) os /\ frun ex_hash N.eqb ex_env empty_table os = Ok (t, rs) /\
  forall fuel, find_fuel ex_hash N.eqb ex_env fuel t k = Loop.
Proof.
  exists inflate, 999%N, inflated, (match frun ex_hash N.eqb ex_env empty_table inflate with Ok (_, rs) => rs | _ => [] end). split; [|split].
  - unfold inflate. apply Forall_app. split; [|apply Forall_app; split; [constructor; [exact I|constructor]|apply Forall_app; split]].
    + apply Forall_forall. intros o Ho. apply elem_of_list_fmap in Ho. destruct Ho as (x & -> & Hx).
      apply elem_of_list_fmap in Hx. destruct Hx as (y & -> & _). exact I.
    + apply Forall_replicate. exact I.
    + apply Forall_forall. intros o Ho. apply elem_of_list_fmap in Ho. destruct Ho as (x & -> & Hx).
      apply elem_of_list_fmap in Hx. destruct Hx as (y & -> & _). exact I.
  - vm_compute. reflexivity.
  - apply (stuck_forever _ _ _ _ _ 6).
    + vm_compute. reflexivity.
    + apply Nat.leb_le. vm_compute. reflexivity.
    + vm_compute. reflexivity.
Qed.
Print Assumptions C12_histories_refuted.
