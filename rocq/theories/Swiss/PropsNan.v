(** Property theorems C74: hash tables with keys that do not equal themselves, such as floating-point numbers
    that are not numbers. *)
From stdpp Require Import list.
From Coq Require Import Arith NArith ZArith Lia.
From Verif.Common Require Import Res Word.
From Verif.Swiss Require Import Group GroupSpec Model Probe Inv TableInv Resize Ops MapSpec History Multi PropsTable.
Local Open Scope nat_scope.
Local Open Scope res_scope.

(** ** Specification: the ordinary keys are an ideal map; beside it lies a heap of elements whose key does not
    equal itself, which no lookup finds. *)
Section Spec.
Context {K V : Type} (eqb : K -> K -> bool).
Definition key_of (o : op K V) : option K :=
  match o with OEmplace k _ | OAssign k _ | OFind k | OErase k => Some k | _ => None end.
Definition strange (o : op K V) : bool :=
  match key_of o with Some k => negb (eqb k k) | None => false end.
(** [n_step m h o r m' h']: call [o] with the map [m] of ordinary elements and the heap [h] of the others may
    answer [r] and leave [m'] and [h'] *)
Definition n_step (m h : list (K * V)) (o : op K V) (r : out K V) (m' h' : list (K * V)) : Prop :=
  if strange o then
    m' = m /\
    match o with
    | OEmplace k v | OAssign k v => (r = RInserted true (k, v) /\ h' = (k, v) :: h) \/ (r = RThrow /\ h' = h)
    | OFind _ => r = RFound None /\ h' = h
    | OErase _ => r = RErased None /\ h' = h
    | _ => False
    end
  else
    match o with
    | OClear => r = RUnit /\ m' = [] /\ h' = []
    | OSize => r = RSize (length m + length h) /\ m' = m /\ h' = h
    | OTraverse => (exists l, r = RElems l /\ Permutation l (m ++ h)) /\ m' = m /\ h' = h
    | _ => s_step eqb m o r m' /\ h' = h
    end.
Inductive n_run : list (K * V) -> list (K * V) -> list (op K V) -> list (out K V) -> list (K * V) -> list (K * V) -> Prop :=
| n_run_nil m h : n_run m h [] [] m h
| n_run_cons m h o r m1 h1 os rs m2 h2 : n_step m h o r m1 h1 -> n_run m1 h1 os rs m2 h2 ->
    n_run m h (o :: os) (r :: rs) m2 h2.
End Spec.

Section Split.
Context {K V : Type} (hash : K -> N) (eqb : K -> K -> bool) (HP : KeyPER hash eqb).
Notation elt := (K * V)%type.
Definition ord (e : elt) : bool := eqb (fst e) (fst e).
Lemma ord_pair k v : ord (k, v) = eqb k k.
Proof using. reflexivity. Qed.
Local Arguments ord : simpl never.
Notation ords := (List.filter ord).
Notation odds := (List.filter (fun e => negb (ord e))).

Lemma per_self a b : eqb a b = true -> eqb a a = true /\ eqb b b = true.
Proof using HP.
  intros H. assert (H' : eqb b a = true) by (rewrite (kp_sym _ _ HP); assumption).
  split; eapply (kp_trans _ _ HP); eassumption.
Qed.
Lemma find_ord (m : list elt) k : s_find eqb m k = s_find eqb (ords m) k.
Proof using HP.
  induction m as [|e m IH]; cbn; [reflexivity|]. destruct (eqb k (fst e)) eqn:Ek.
  - destruct (per_self _ _ Ek) as [_ He]. assert (Ho : ord e = true) by exact He. rewrite Ho. cbn. rewrite Ek. reflexivity.
  - destruct (ord e); cbn; [rewrite Ek|]; assumption.
Qed.
Lemma find_odd (m : list elt) k : eqb k k = false -> s_find eqb m k = None.
Proof using HP.
  intros Hk. induction m as [|e m IH]; cbn; [reflexivity|]. destruct (eqb k (fst e)) eqn:Ek; [|assumption].
  destruct (per_self _ _ Ek). congruence.
Qed.
Lemma erase_ord (m : list elt) k : ords (s_erase eqb m k) = s_erase eqb (ords m) k /\ odds (s_erase eqb m k) = odds m.
Proof using HP.
  unfold s_erase. induction m as [|e m [IH1 IH2]]; [split; reflexivity|]. cbn.
  destruct (eqb k (fst e)) eqn:Ek; cbn.
  - destruct (per_self _ _ Ek) as [_ He]. assert (Ho : ord e = true) by exact He. rewrite Ho. cbn. rewrite Ek. cbn. split; assumption.
  - destruct (ord e) eqn:Ho; cbn; [rewrite Ek; cbn|]; split; congruence.
Qed.
Lemma erase_odd (m : list elt) k : eqb k k = false -> s_erase eqb m k = m.
Proof using HP.
  intros Hk. unfold s_erase. induction m as [|e m IH]; cbn; [reflexivity|]. destruct (eqb k (fst e)) eqn:Ek; cbn; [|congruence].
  destruct (per_self _ _ Ek). congruence.
Qed.
Lemma update_ord (m : list elt) k v : ords (s_update eqb m k v) = s_update eqb (ords m) k v /\
  odds (s_update eqb m k v) = odds m.
Proof using HP.
  unfold s_update. induction m as [|e m [IH1 IH2]]; [split; reflexivity|]. cbn.
  destruct (eqb k (fst e)) eqn:Ek; cbn.
  - destruct (per_self _ _ Ek) as [_ He]. assert (Ho : ord e = true) by exact He. rewrite ord_pair, He, Ho. cbn. rewrite Ek. split; congruence.
  - destruct (ord e) eqn:Ho; cbn; [rewrite Ek|]; split; congruence.
Qed.
Lemma split_perm (m : list elt) : Permutation m (ords m ++ odds m).
Proof using.
  induction m as [|e m IH]; [constructor|]. cbn. destruct (ord e); cbn; [constructor; assumption|].
  etransitivity; [apply perm_skip, IH|apply Permutation_middle].
Qed.
Lemma step_split (m m' : list elt) o r : s_step eqb m o r m' ->
  n_step eqb (ords m) (odds m) o r (ords m') (odds m').
Proof using HP.
  intros Hs. unfold n_step, strange. destruct o as [k v|k v|k|k| |n|n| |]; cbn [key_of s_step] in *;
    try (destruct (eqb k k) eqn:Ek; cbn [negb]).
  - rewrite <- find_ord. destruct (s_find eqb m k); [destruct Hs as [-> ->]; auto|].
    destruct Hs as [[-> ->]|[-> ->]]; [|auto]. cbn. rewrite ord_pair, Ek. cbn. auto.
  - rewrite find_odd in Hs by assumption. destruct Hs as [[-> ->]|[-> ->]]; [|auto]. cbn. rewrite ord_pair, Ek. cbn. auto.
  - rewrite <- find_ord. destruct (s_find eqb m k).
    + destruct Hs as [-> ->]. destruct (update_ord m k v) as [-> ->]. auto.
    + destruct Hs as [[-> ->]|[-> ->]]; [|auto]. cbn. rewrite ord_pair, Ek. cbn. auto.
  - rewrite find_odd in Hs by assumption. destruct Hs as [[-> ->]|[-> ->]]; [|auto]. cbn. rewrite ord_pair, Ek. cbn. auto.
  - destruct Hs as [-> ->]. rewrite <- find_ord. auto.
  - destruct Hs as [-> ->]. rewrite find_odd by assumption. auto.
  - destruct Hs as [-> ->]. rewrite <- find_ord. destruct (erase_ord m k) as [-> ->]. auto.
  - destruct Hs as [-> ->]. rewrite find_odd, erase_odd by assumption. auto.
  - destruct Hs as [-> ->]. auto.
  - destruct Hs as [Hr ->]. auto.
  - destruct Hs as [Hr ->]. auto.
  - destruct Hs as [-> ->]. rewrite <- app_length, <- (Permutation_length (split_perm m)). auto.
  - destruct Hs as [(l & -> & Hp) ->]. split; [|auto]. exists l. split; [reflexivity|]. rewrite Hp. apply split_perm.
Qed.
Lemma run_split os : forall (m m' : list elt) rs, s_run eqb m os rs m' ->
  n_run eqb (ords m) (odds m) os rs (ords m') (odds m').
Proof using HP.
  induction os as [|o os IH]; intros m m' rs H; inversion H; subst; [constructor|].
  econstructor; [eapply step_split; eassumption|]. apply IH. assumption.
Qed.
End Split.

(** C74.  With an equality that is symmetric and transitive and under which equal keys have equal hashes,
    but some keys do not equal themselves: every program runs to its end; the keys that equal themselves are
    an ideal map, whatever is done with the others; an element with another key is inserted each time, is
    found and erased by no key, stays until clear(), and is counted and traversed. *)
Theorem C74_partial_equality : forall (K V : Type) (hash : K -> N) (eqb : K -> K -> bool) (E : env) (os : list (op K V)),
  real_env E -> KeyPER hash eqb -> Forall (op_ok E) os ->
  exists t rs m h, run hash eqb E empty_table os = Ok (t, rs) /\ n_run eqb [] [] os rs m h.
Proof.
  intros K V hash eqb E os HE HP Ho.
  destruct (run_ok hash eqb E (real_env_ok E HE) HP os empty_table [] (R_empty hash eqb E) Ho) as (t & rs & m & H1 & H2 & _).
  exists t, rs, (List.filter (ord eqb) m), (List.filter (fun e => negb (ord eqb e)) m). split; [assumption|].
  apply (run_split hash eqb HP os [] m rs H2).
Qed.
Print Assumptions C74_partial_equality.

(** Numbers with one value that is not a number. *)
Definition nan_eqb (a b : option N) : bool :=
  match a, b with Some x, Some y => N.eqb x y | _, _ => false end.
Definition nan_hash (a : option N) : N := match a with Some x => x | None => 5%N end.
Lemma nan_per : KeyPER nan_hash nan_eqb.
Proof.
  constructor.
  - intros [a|] [b|]; cbn; try reflexivity. apply N.eqb_sym.
  - intros [a|] [b|] [c|]; cbn; try discriminate. intros H1 H2. apply N.eqb_eq in H1, H2. subst. apply N.eqb_refl.
  - intros [a|] [b|]; cbn; try discriminate. intros H. apply N.eqb_eq in H. congruence.
Qed.
Definition nan_ops : list (op (option N) N) :=
  [OEmplace None 1%N; OEmplace (Some 5%N) 2%N; OEmplace None 3%N; OAssign None 4%N; OFind None; OErase None; OSize;
   OErase (Some 5%N); OFind (Some 5%N); OSize; OClear; OSize].
Example C74_example : real_env ex_env /\ KeyPER nan_hash nan_eqb /\ Forall (op_ok ex_env) nan_ops /\
  rmap snd (run nan_hash nan_eqb ex_env empty_table nan_ops) =
  Ok [RInserted true (None, 1%N); RInserted true (Some 5%N, 2%N); RInserted true (None, 3%N); RInserted true (None, 4%N);
      RFound None; RErased None; RSize 4; RErased (Some (Some 5%N, 2%N)); RFound None; RSize 3; RUnit; RSize 0].
Proof.
  split; [apply ex_env_real|]. split; [apply nan_per|]. split; [|vm_compute; reflexivity].
  unfold nan_ops. repeat (apply Forall_cons_2; [exact I|]). apply Forall_nil_2.
Qed.
Print Assumptions C74_example.

(** One key that does not equal itself, and the container is not equal to its own copy, nor to itself. *)
Definition nan_eeq (a b : option N * N) : bool := nan_eqb (fst a) (fst b) && N.eqb (snd a) (snd b).
Theorem C74_copy_equal_refuted : exists (t t' : table (option N) N),
  reachable nan_hash nan_eqb ex_env t /\ copy nan_hash ex_env t = Ok t' /\
  to_list ex_env t = Ok [(None, 1%N)] /\ to_list ex_env t' = Ok [(None, 1%N)] /\
  table_eq nan_hash ex_env nan_eeq t t' = Ok false /\ table_eq nan_hash ex_env nan_eeq t t = Ok false.
Proof.
  destruct (run nan_hash nan_eqb ex_env empty_table [OEmplace None 1%N]) as [[t rs]| | | |] eqn:Hr; try (vm_compute in Hr; discriminate).
  pose proof Hr as Hr'. vm_compute in Hr'. injection Hr' as Ht _.
  eexists t, _. split.
  { exists [OEmplace None 1%N], rs. split; [|exact Hr]. apply Forall_cons_2; [exact I|apply Forall_nil_2]. }
  subst t. split; [vm_compute; reflexivity|]. repeat split; vm_compute; reflexivity.
Qed.
Print Assumptions C74_copy_equal_refuted.
