(** Property theorems C73: hash tables whose hash and equality objects may answer anything. *)
From stdpp Require Import list.
From Coq Require Import Arith NArith ZArith Lia.
From Verif.Common Require Import Res Word.
From Verif.Swiss Require Import Group GroupSpec Model Probe Inv TableInv Resize Ops MapSpec History PropsTable
  AnyHashSpec AnyHash AnyHashProof.
Local Open Scope nat_scope.
Local Open Scope res_scope.
Local Arguments elems : simpl never.

(** The arguments of rehash and reserve for which the capacity computation does not wrap; rehash(0) is
    property C06's and excluded. *)
Definition args_ok {K V} (E : env) (o : call K V) : Prop :=
  match o with
  | CRehash n => n <> 0%N /\ (n < 2 ^ 64)%N /\ no_wrap E (NormalizeCapacity n)
  | CReserve n => n <> 0%N /\ (n < 2 ^ 62)%N /\
      forall m, GrowthToLowerboundCapacity (g_width (e_group E)) n = Ok m -> no_wrap E (NormalizeCapacity m)
  | _ => True
  end.
(** the equality object answered yes for [a], [b] in one of its calls numbered from [n] to [n'] *)
Definition said {K} (eqb : nat -> K -> K -> bool) (n n' : nat) (a b : K) : Prop :=
  exists i, n <= i < n' /\ eqb i a b = true.

(** Tables a program can have built, with the number of the next call of the two objects.  The program may
    choose each call knowing all that happened before. *)
Inductive reach {K V} (hash : nat -> K -> N) (eqb : nat -> K -> K -> bool) (E : env) : nat -> table K V -> Prop :=
| reach_empty : reach hash eqb E 0 empty_table
| reach_call n t c o t' r n' : reach hash eqb E n t -> to_list E t = Ok c -> args_ok E o -> usable c o ->
    exec_any hash eqb E n t o = Ok (t', r, n') -> reach hash eqb E n' t'.

Section Calls.
Context {K V : Type} (hash : nat -> K -> N) (eqb : nat -> K -> K -> bool) (E : env) (HE : env_ok E).
Notation elt := (K * V)%type.

Lemma deref_some (t : table K V) p e : t_slots t !! p = Some (Some e) -> deref t p = Ok e.
Proof using. intros H. unfold deref. rewrite (load_some _ _ _ H). reflexivity. Qed.
Lemma slot_in (t : table K V) p e : t_slots t !! p = Some (Some e) -> In e (elems (t_slots t)).
Proof using.
  intros H. destruct (elems_split _ _ _ H) as (l2 & -> & _). apply in_or_app. right. left. reflexivity.
Qed.
Lemma exec_legal (t : table K V) n o : wgood E t -> args_ok E o -> usable (elems (t_slots t)) o ->
  exists t' r n', exec_any hash eqb E n t o = Ok (t', r, n') /\ wgood E t' /\
    legal (said eqb n n') (elems (t_slots t)) o r (elems (t_slots t')).
Proof using HE.
  intros Hg Ho Hu.
  assert (Hfind : forall k, exists r n1, find_hash eqb E (S n) t k (hash n k) = Ok (r, n1) /\ found eqb t k n r n1).
  { intros k. destruct (find_hash_ok E HE hash eqb t k (hash n k) (S n) Hg) as (r & n1 & H1 & H2).
    exists r, n1. split; [assumption|]. apply (found_le E HE hash eqb t k n (S n)); [lia|assumption]. }
  destruct o as [k v|k v|k|k|j| |m|m| | |]; cbn [exec_any args_ok usable legal] in *.
  - (* emplace *)
    unfold find_key_any, emplace_any. destruct (Hfind k) as (r & n1 & Hf & Hle & Hs). rewrite Hf. cbn [rbind].
    destruct r as [p|].
    + destruct Hs as (e & i & Hp & Hi & He). cbn [rbind]. rewrite (deref_some t p e Hp). cbn [rbind caught].
      eexists t, _, n1. split; [reflexivity|]. split; [assumption|]. right. left. exists e.
      split; [reflexivity|]. split; [eapply slot_in; eassumption|]. split; [exists i; auto|reflexivity].
    + destruct (insert_any_ok E HE hash eqb t (k, v) (hash n k) n1 Hg) as [Hb|(t1 & p & n2 & t2 & Hpr & Hfi & Ht2 & Hp & Hperm)].
      * rewrite Hb. cbn [rbind caught]. eexists t, _, n1. split; [reflexivity|]. split; [assumption|]. auto.
      * rewrite Hpr. cbn [rbind]. rewrite Hfi. cbn [rbind]. rewrite (deref_some t2 p _ Hp). cbn [rbind caught].
        eexists t2, _, n2. split; [reflexivity|]. split; [right; assumption|]. left. auto.
  - (* insert_or_assign *)
    unfold find_key_any, assign_any, emplace_any. destruct (Hfind k) as (r & n1 & Hf & Hle & Hs). rewrite Hf. cbn [rbind].
    destruct r as [p|].
    + destruct Hs as (e & i & Hp & Hi & He). cbn [rbind]. destruct Hg as [->|Ht]; [discriminate|].
      destruct (assign_at_ok E HE hash eqb t p e v Ht Hp) as (t2 & Ha & Ht2 & Hsl). rewrite Ha. cbn [rbind].
      rewrite (deref_some t2 p (fst e, v)).
      2:{ rewrite Hsl. apply list_lookup_insert. apply lookup_lt_Some in Hp. assumption. }
      cbn [rbind caught]. eexists t2, _, n1. split; [reflexivity|]. split; [right; assumption|]. right. left.
      destruct (elems_split _ _ _ Hp) as (l2 & Hl & _ & Hset). rewrite Hsl, Hset.
      eexists _, e, l2. split; [exact Hl|]. split; [exists i; auto|]. auto.
    + destruct (insert_any_ok E HE hash eqb t (k, v) (hash n k) n1 Hg) as [Hb|(t1 & p & n2 & t2 & Hpr & Hfi & Ht2 & Hp & Hperm)].
      * rewrite Hb. cbn [rbind caught]. eexists t, _, n1. split; [reflexivity|]. split; [assumption|]. auto.
      * rewrite Hpr. cbn [rbind]. rewrite Hfi. cbn [rbind]. rewrite (deref_some t2 p _ Hp). cbn [rbind caught].
        eexists t2, _, n2. split; [reflexivity|]. split; [right; assumption|]. left. auto.
  - (* find *)
    unfold find_key_any. destruct (Hfind k) as (r & n1 & Hf & Hle & Hs). rewrite Hf. cbn [rbind]. destruct r as [p|].
    + destruct Hs as (e & i & Hp & Hi & He). rewrite (deref_some t p e Hp). cbn [rbind].
      eexists t, _, n1. split; [reflexivity|]. split; [assumption|]. split; [reflexivity|]. right. exists e.
      split; [reflexivity|]. split; [eapply slot_in; eassumption|exists i; auto].
    + eexists t, _, n1. split; [reflexivity|]. auto.
  - (* erase *)
    unfold erase_key_any, find_key_any. destruct (Hfind k) as (r & n1 & Hf & Hle & Hs). rewrite Hf. cbn [rbind]. destruct r as [p|].
    + destruct Hs as (e & i & Hp & Hi & He). destruct Hg as [->|Ht]; [discriminate|].
      destruct (w_erase E HE hash eqb t p e Ht Hp) as (t' & Her & Ht' & Hsl). rewrite Her. cbn [rbind].
      eexists t', _, n1. split; [reflexivity|]. split; [right; assumption|]. right. split; [reflexivity|].
      destruct (elems_split _ _ _ Hp) as (l2 & Hl & Hrem & _). rewrite Hsl, Hrem.
      eexists _, e, l2. split; [exact Hl|]. split; [exists i; auto|reflexivity].
    + cbn [rbind]. eexists t, _, n1. split; [reflexivity|]. auto.
  - (* erase(iterator) *)
    destruct (erase_nth_ok E HE hash eqb t j Hg Hu) as (e & t' & l1 & l2 & Her & Ht' & Hl & Hj & Hl'). rewrite Her. cbn [rbind].
    eexists t', _, n. split; [reflexivity|]. split; [assumption|]. split; [reflexivity|]. exists l1, e, l2. auto.
  - destruct (w_clear E HE hash eqb t Hg) as (t' & Hc & Ht' & Hl). rewrite Hc. cbn [rbind].
    eexists t', _, n. split; [reflexivity|]. auto.
  - destruct Ho as (H0 & H1 & H2).
    destruct (rehash_any_ok E HE hash eqb t m n Hg H0 H1 H2) as [Hb|(t' & n' & Hr & Ht' & Hp)].
    + rewrite Hb. cbn [rbind caught]. eexists t, _, n. split; [reflexivity|]. auto.
    + rewrite Hr. cbn [rbind caught]. eexists t', _, n'. split; [reflexivity|]. auto.
  - destruct Ho as (H0 & H1 & H2).
    destruct (reserve_any_ok E HE hash eqb t m n Hg H0 H1 H2) as [Hb|(t' & n' & Hr & Ht' & Hp)].
    + rewrite Hb. cbn [rbind caught]. eexists t, _, n. split; [reflexivity|]. auto.
    + rewrite Hr. cbn [rbind caught]. eexists t', _, n'. split; [reflexivity|]. auto.
  - destruct (copy_any_ok E HE hash eqb t n Hg) as [Hb|(t' & n' & Hr & Ht' & Hp)].
    + rewrite Hb. cbn [rbind caught]. eexists t, _, n. split; [reflexivity|]. auto.
    + rewrite Hr. cbn [rbind caught]. eexists t', _, n'. split; [reflexivity|]. auto.
  - eexists t, _, n. split; [reflexivity|]. rewrite (w_size E t Hg). auto.
  - destruct (w_iterate E HE hash eqb t Hg) as (is & _ & Hl & _). rewrite Hl. cbn [rbind].
    eexists t, _, n. split; [reflexivity|]. auto.
Qed.
Lemma to_list_elems (t : table K V) : wgood E t -> to_list E t = Ok (elems (t_slots t)).
Proof using HE hash eqb. intros Hg. destruct (w_iterate E HE hash eqb t Hg) as (is & _ & Hl & _). assumption. Qed.
Lemma reach_good n (t : table K V) : reach hash eqb E n t -> wgood E t.
Proof using HE.
  induction 1 as [|n t c o t' r n' Hr IH Hc Ho Hu Hx]; [left; reflexivity|].
  rewrite (to_list_elems t IH) in Hc. injection Hc as <-.
  destruct (exec_legal t n o IH Ho Hu) as (t2 & r2 & n2 & Hx2 & Hg & _). rewrite Hx in Hx2. injection Hx2 as <- <- <-. assumption.
Qed.
End Calls.

(** C73.  Whatever the two objects answer, no call a program makes corrupts the table, never ends or loses
    an element: it terminates without undefined behaviour, and its answer and the new content are among those
    the specification allows. *)
Theorem C73_any_hash_calls : forall (K V : Type) (hash : nat -> K -> N) (eqb : nat -> K -> K -> bool) (E : env)
    (n : nat) (t : table K V),
  real_env E -> reach hash eqb E n t ->
  exists c, to_list E t = Ok c /\ forall o, args_ok E o -> usable c o ->
    exists t' r n' c', exec_any hash eqb E n t o = Ok (t', r, n') /\ to_list E t' = Ok c' /\
      legal (said eqb n n') c o r c'.
Proof.
  intros K V hash eqb E n t HE Hr. pose proof (real_env_ok E HE) as HE'.
  pose proof (reach_good hash eqb E HE' n t Hr) as Hg.
  exists (elems (t_slots t)). split; [apply (to_list_elems hash eqb E HE' t Hg)|]. intros o Ho Hu.
  destruct (exec_legal hash eqb E HE' t n o Hg Ho Hu) as (t' & r & n' & Hx & Hg' & Hl).
  exists t', r, n', (elems (t_slots t')). split; [assumption|]. split; [apply (to_list_elems hash eqb E HE' t' Hg')|assumption].
Qed.
Print Assumptions C73_any_hash_calls.

(** The answers of a program, call by call, against the contents. *)
Fixpoint conforms {K V} (eqb : nat -> K -> K -> bool) (E : env) (n : nat) (c : list (K * V)) (os : list (call K V))
    (rs : list (nat * table K V * answer K V)) : Prop :=
  match os, rs with
  | [], [] => True
  | o :: os', (n', t', r) :: rs' =>
      exists c', to_list E t' = Ok c' /\ legal (said eqb n n') c o r c' /\ conforms eqb E n' c' os' rs'
  | _, _ => False
  end.
(** C73, whole programs: a program that erases through no iterator runs to its end, whatever the two objects
    answer, and every step is legal. *)
Theorem C73_any_hash_programs : forall (K V : Type) (hash : nat -> K -> N) (eqb : nat -> K -> K -> bool) (E : env)
    (os : list (call K V)),
  real_env E -> Forall (args_ok E) os -> Forall (fun o => forall j, o <> CEraseNth j) os ->
  exists rs, run_any hash eqb E 0 empty_table os = Ok rs /\ conforms eqb E 0 [] os rs.
Proof.
  intros K V hash eqb E os HE. pose proof (real_env_ok E HE) as HE'.
  enough (Hgen : forall os (t : table K V) n, wgood E t -> Forall (args_ok E) os ->
    Forall (fun o => forall j, o <> CEraseNth j) os ->
    exists rs, run_any hash eqb E n t os = Ok rs /\ conforms eqb E n (elems (t_slots t)) os rs).
  { intros Ha Hn. apply (Hgen os empty_table 0); [left; reflexivity|assumption|assumption]. }
  clear os. induction os as [|o os IH]; intros t n Hg Ha Hn.
  - exists []. split; [reflexivity|exact I].
  - inversion Ha as [|? ? Ha1 Ha2]; inversion Hn as [|? ? Hn1 Hn2]; subst.
    destruct (exec_legal hash eqb E HE' t n o Hg Ha1) as (t' & r & n' & Hx & Hg' & Hl).
    { destruct o; try exact I. exfalso. eapply Hn1. reflexivity. }
    destruct (IH t' n' Hg' Ha2 Hn2) as (rs & Hrs & Hc). exists ((n', t', r) :: rs). cbn [run_any]. rewrite Hx. cbn [rbind].
    rewrite Hrs. cbn [rbind]. split; [reflexivity|]. cbn [conforms]. exists (elems (t_slots t')).
    split; [apply (to_list_elems hash eqb E HE' t' Hg')|]. auto.
Qed.
Print Assumptions C73_any_hash_programs.

(** A hash that changes from call to call and an equality that answers yes to every eleventh call. *)
Definition wild_hash (n : nat) (k : N) : N := (N.of_nat (n mod 2) + 128 * k)%N.
Definition wild_eqb (n : nat) (a b : N) : bool := n mod 11 =? 0.
Definition wild_ops : list (call N N) :=
  map (fun k => CEmplace k k) (nums 0 20) ++ map CErase (nums 0 9) ++ map (fun k => CAssign k 7%N) (nums 5 20) ++
  [CRehash 100%N; CCopy; CFind 3%N; CReserve 60%N; CTraverse].
Definition answers_of (l : res (list (nat * table N N * answer N N))) : list (answer N N) :=
  match l with Ok rs => map snd rs | _ => [] end.
Example C73_example : real_env ex_env /\ Forall (args_ok ex_env) wild_ops /\
  Forall (fun o => forall j, o <> CEraseNth j) wild_ops /\
  existsb (fun r => match r with AInserted false _ => true | _ => false end)
    (answers_of (run_any wild_hash wild_eqb ex_env 0 empty_table wild_ops)) = true /\
  existsb (fun r => match r with AElems l => 20 <=? length l | _ => false end)
    (answers_of (run_any wild_hash wild_eqb ex_env 0 empty_table wild_ops)) = true.
Proof.
  split; [apply ex_env_real|]. split; [|split; [|split; vm_compute; reflexivity]].
  - unfold wild_ops. repeat (apply Forall_app; split);
      try (apply Forall_forall; intros o Ho; apply elem_of_list_fmap in Ho; destruct Ho as (k & -> & _); exact I).
    repeat (apply Forall_cons_2; [cbn; try exact I|]); [| |apply Forall_nil_2].
    + split; [discriminate|]. split; [reflexivity|]. vm_compute. reflexivity.
    + split; [discriminate|]. split; [reflexivity|]. intros m Hm. vm_compute in Hm. injection Hm as <-. vm_compute. reflexivity.
  - unfold wild_ops. repeat (apply Forall_app; split);
      try (apply Forall_forall; intros o Ho; apply elem_of_list_fmap in Ho; destruct Ho as (k & -> & _); discriminate).
    repeat (apply Forall_cons_2; [discriminate|]). apply Forall_nil_2.
Qed.
Print Assumptions C73_example.
(** erasing through an iterator is reachable too *)
Example C73_reach_example : exists n t c, reach wild_hash wild_eqb ex_env n t /\ to_list ex_env t = Ok c /\
  usable c (CEraseNth 1 : call N N).
Proof.
  pose proof (@reach_empty N N wild_hash wild_eqb ex_env) as H.
  eapply reach_call with (o := CEmplace 4%N 4%N) in H; [|vm_compute; reflexivity|exact I|exact I|vm_compute; reflexivity].
  eapply reach_call with (o := CEmplace 5%N 5%N) in H; [|vm_compute; reflexivity|exact I|exact I|vm_compute; reflexivity].
  eexists _, _, _. split; [exact H|]. split; [vm_compute; reflexivity|]. cbn. lia.
Qed.
Print Assumptions C73_reach_example.

(** What is lost.  With a proper equality and a hash that changes from call to call, a key just inserted need
    not be found, and can be inserted again. *)
Theorem C73_find_inserted_refuted : exists (hash : nat -> N -> N),
  answers_of (run_any hash (fun _ => N.eqb) ex_env 0 empty_table
    [CEmplace 1%N 1%N; CFind 1%N; CEmplace 1%N 2%N; CSize]) =
  [AInserted true (1, 1)%N; AFound None; AInserted true (1, 2)%N; ACount 2].
Proof. exists (fun n _ => N.of_nat n). vm_compute. reflexivity. Qed.
Print Assumptions C73_find_inserted_refuted.
(** With a proper hash, and equality that always answers the same but is not reflexive, a key in the traversal
    can be impossible to find or erase while its look-alike is. *)
Theorem C73_erase_listed_refuted : exists (eqb : N -> N -> bool),
  answers_of (run_any (fun _ _ => 0%N) (fun _ => eqb) ex_env 0 empty_table
    [CEmplace 1%N 1%N; CErase 1%N; CErase 2%N; CSize]) =
  [AInserted true (1, 1)%N; ACount 0; ACount 1; ACount 0].
Proof. exists (fun a b => negb (N.eqb a b)). vm_compute. reflexivity. Qed.
Print Assumptions C73_erase_listed_refuted.
