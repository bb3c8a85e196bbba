(** C43: reference counting of one shared object by several threads (intrusive.hpp). *)
From stdpp Require Import list list_numbers.
From Coq Require Import NArith Lia.
From Coq Require Import ZifyBool ZifyNat ZifyN.
From Verif.Common Require Import Res Word.
Open Scope nat_scope.
Open Scope res_scope.

(** ** Model
    One object; each thread owns some intrusive_ptr's to it.  [Safe] is thread_safe_counter
    (intrusive.hpp:329-337: increments and decrements of a std::atomic are single indivisible
    steps; all use the default, sequentially consistent order); [Unsafe] is thread_unsafe_counter
    (313-321), whose ++ and -- are a load followed by a store.  Every access to a deleted object
    is UB. *)
Inductive policy := Safe | Unsafe.
Inductive pc :=
| Idle
| Inc (v : N)     (* [Unsafe]: the counter has been loaded by ++ *)
| Dec (v : N)     (* [Unsafe]: the counter has been loaded by -- *)
| Delete.         (* the decrement returned 0; the delete expression comes next *)
Record thread := { own : nat; at_ : pc }.
Record cst := { cnt : N; alive : bool; ndel : nat; thr : list thread }.

(** One step of thread i.  [Go] continues an operation that is in progress.  A step that the
    thread cannot take here (it owns nothing, it is in the middle of an operation) gives [None]. *)
Inductive act := Copy | Drop | Use | Give (j : nat) | Go.
Definition set_thr (s : cst) (i : nat) (t : thread) : cst :=
  {| cnt := cnt s; alive := alive s; ndel := ndel s; thr := <[i := t]> (thr s) |}.
Definition set_cnt (s : cst) (c : N) : cst := {| cnt := c; alive := alive s; ndel := ndel s; thr := thr s |}.
Definition check (s : cst) (k : cst) : res cst := if alive s then Ok k else UB.
Definition after_dec (c : N) : pc := if N.eqb c 0 then Delete else Idle.

Definition step (pol : policy) (s : cst) (i : nat) (a : act) : option (res cst) :=
  match thr s !! i with
  | None => None
  | Some t =>
    match at_ t, a with
    | Idle, Copy => (* intrusive.hpp:61-72, 375 *)
      if Nat.eqb (own t) 0 then None else Some
      match pol with
      | Safe => check s (set_cnt (set_thr s i {| own := S (own t); at_ := Idle |}) (wadd 32 (cnt s) 1))
      | Unsafe => check s (set_thr s i {| own := own t; at_ := Inc (cnt s) |})
      end
    | Inc v, Go => Some (check s (set_cnt (set_thr s i {| own := S (own t); at_ := Idle |}) (wadd 32 v 1)))
    | Idle, Drop => (* intrusive.hpp:91-94, 377-380 *)
      if Nat.eqb (own t) 0 then None else Some
      match pol with
      | Safe => let c := wsub 32 (cnt s) 1 in
                check s (set_cnt (set_thr s i {| own := pred (own t); at_ := after_dec c |}) c)
      | Unsafe => check s (set_thr s i {| own := own t; at_ := Dec (cnt s) |})
      end
    | Dec v, Go => let c := wsub 32 v 1 in
      Some (check s (set_cnt (set_thr s i {| own := pred (own t); at_ := after_dec c |}) c))
    | Delete, Go => (* 379: delete; deleting twice is UB *)
      Some (check s {| cnt := cnt s; alive := false; ndel := S (ndel s); thr := <[i := {| own := own t; at_ := Idle |}]> (thr s) |})
    | Idle, Use => (* *p, p->use_count() *)
      if Nat.eqb (own t) 0 then None else Some (check s s)
    | Idle, Give j => (* a pointer is moved to another thread, by some synchronised means *)
      if Nat.eqb (own t) 0 then None else
      match thr s !! j with
      | None => None
      | Some u => if Nat.eqb i j then Some (Ok s) else
        Some (Ok (set_thr (set_thr s i {| own := pred (own t); at_ := Idle |}) j {| own := S (own u); at_ := at_ u |}))
      end
    | _, _ => None
    end
  end.

(** ** Specification *)
Definition total (s : cst) : nat := sum_list (map own (thr s)).
(** the start: the owners own as many pointers as the counter says, at least one *)
Definition start (s : cst) : Prop :=
  alive s = true /\ ndel s = 0 /\ Forall (fun t => at_ t = Idle) (thr s) /\ cnt s = N.of_nat (total s) /\
  0 < total s.
(** executions in which fewer than 2^32 pointers exist at any time *)
Inductive reach (pol : policy) : cst -> Prop :=
| r_start s : start s -> (N.of_nat (total s) < 2 ^ 32)%N -> reach pol s
| r_step s i a s' : reach pol s -> step pol s i a = Some (Ok s') -> (N.of_nat (total s') < 2 ^ 32)%N -> reach pol s'.

(** ** Invariant *)
Definition npend (s : cst) : nat := sum_list (map (fun t => match at_ t with Delete => 1 | _ => 0 end) (thr s)).
Arguments total : simpl never.
Arguments npend : simpl never.
Definition calm (t : thread) : Prop := at_ t = Idle \/ at_ t = Delete.
Definition cinv (s : cst) : Prop :=
  Forall calm (thr s) /\ cnt s = N.of_nat (total s) /\ (N.of_nat (total s) < 2 ^ 32)%N /\
  ((alive s = true /\ ndel s = 0 /\ (0 < total s /\ npend s = 0 \/ total s = 0 /\ npend s = 1)) \/
   (alive s = false /\ ndel s = 1 /\ total s = 0 /\ npend s = 0)).

Lemma sum_insert {A} (f : A -> nat) l i x y : l !! i = Some x -> sum_list (map f (<[i := y]> l)) + f x = sum_list (map f l) + f y.
Proof.
  revert i. induction l as [|a l IH]; intros [|i] H; cbn in H; try discriminate.
  - injection H as ->. cbn. lia.
  - specialize (IH i H). change (<[S i := y]> (a :: l)) with (a :: <[i := y]> l). cbn. lia.
Qed.
Lemma sum_lookup {A} (f : A -> nat) l i x : l !! i = Some x -> f x <= sum_list (map f l).
Proof.
  revert i. induction l as [|a l IH]; intros [|i] H; cbn in *; try discriminate.
  - injection H as ->. lia.
  - specialize (IH i H). lia.
Qed.
Lemma wadd_small k : (N.of_nat (S k) < 2 ^ 32)%N -> wadd 32 (N.of_nat k) 1 = N.of_nat (S k).
Proof. intros H. unfold wadd. rewrite N.mod_small by lia. lia. Qed.
Lemma wsub_small k : (N.of_nat (S k) < 2 ^ 32)%N -> wsub 32 (N.of_nat (S k)) 1 = N.of_nat k.
Proof.
  intros H. unfold wsub. change (2 ^ 32)%N with 4294967296%N in *. rewrite (N.mod_small 1) by lia.
  replace (N.of_nat (S k) + 4294967296 - 1)%N with (N.of_nat k + 1 * 4294967296)%N by lia.
  rewrite N.mod_add by discriminate. apply N.mod_small. lia.
Qed.

Definition pend (t : thread) : nat := match at_ t with Delete => 1 | _ => 0 end.
Lemma step_inv s i a r : cinv s -> step Safe s i a = Some r ->
  exists s', r = Ok s' /\ ((N.of_nat (total s') < 2 ^ 32)%N -> cinv s') /\ ndel s <= ndel s'.
Proof.
  intros (Hc & Ec & Hb & HD) Hs. unfold step in Hs.
  destruct (thr s !! i) as [t|] eqn:Et; [|discriminate].
  pose proof (sum_lookup own _ _ _ Et) as Ho. fold (total s) in Ho.
  pose proof (sum_lookup pend _ _ _ Et) as Hpd. change (sum_list (map pend (thr s))) with (npend s) in Hpd.
  assert (Hct : calm t) by (eapply Forall_lookup_1; eassumption).
  assert (Hset : forall t', total (set_thr s i t') + own t = total s + own t').
  { intros t'. apply (sum_insert own (thr s) i t t' Et). }
  assert (Hpet : forall t', npend (set_thr s i t') + pend t = npend s + pend t').
  { intros t'. apply (sum_insert pend (thr s) i t t' Et). }
  destruct Hct as [Hi|Hi]; rewrite Hi in Hs; unfold pend in Hpd, Hpet; rewrite Hi in Hpd, Hpet.
  - destruct a; try discriminate; destruct (Nat.eqb_spec (own t) 0) as [Hz|Hz]; try discriminate.
    + (* copy *) injection Hs as <-. unfold check. destruct HD as [(Ha & Hn & HD)|(Ha & _ & HD & _)]; [|lia]. rewrite Ha.
      eexists. split; [reflexivity|]. split; [|cbn; lia]. intros Hb'.
      set (t' := {| own := S (own t); at_ := Idle |}) in *. change (total (set_cnt (set_thr s i t') (wadd 32 (cnt s) 1))) with (total (set_thr s i t')) in Hb'.
      specialize (Hset t'). specialize (Hpet t'). cbn in Hset, Hpet.
      split; [|split; [|split]]; cbn.
      * apply Forall_insert; [assumption|left; reflexivity].
      * change (total (set_cnt _ _)) with (total (set_thr s i t')).
        replace (total (set_thr s i t')) with (S (total s)) by lia. rewrite Ec. apply wadd_small. lia.
      * exact Hb'.
      * left. split; [assumption|]. split; [assumption|].
        change (total (set_cnt _ _)) with (total (set_thr s i t')). change (npend (set_cnt _ _)) with (npend (set_thr s i t')). lia.
    + (* drop *) injection Hs as <-. unfold check. destruct HD as [(Ha & Hn & HD)|(Ha & _ & HD & _)]; [|lia]. rewrite Ha.
      eexists. split; [reflexivity|]. split; [|cbn; lia]. intros Hb'.
      set (c := wsub 32 (cnt s) 1) in *. set (t' := {| own := pred (own t); at_ := after_dec c |}) in *.
      change (total (set_cnt (set_thr s i t') c)) with (total (set_thr s i t')) in Hb'.
      specialize (Hset t'). specialize (Hpet t'). cbn [own at_ t'] in Hset, Hpet.
      assert (Ec' : c = N.of_nat (total (set_thr s i t'))).
      { unfold c. rewrite Ec. replace (total s) with (S (total (set_thr s i t'))) by lia. apply wsub_small. lia. }
      split; [|split; [|split]]; cbn.
      * apply Forall_insert; [assumption|]. unfold calm. cbn. unfold after_dec. destruct (N.eqb c 0); [right|left]; reflexivity.
      * exact Ec'.
      * exact Hb'.
      * left. split; [assumption|]. split; [assumption|].
        change (total (set_cnt _ _)) with (total (set_thr s i t')). change (npend (set_cnt _ _)) with (npend (set_thr s i t')).
        unfold after_dec in Hpet. destruct (N.eqb_spec c 0) as [Hc0|Hc0]; [right|left]; lia.
    + (* use *) injection Hs as <-. unfold check. destruct HD as [(Ha & Hn & HD)|(Ha & _ & HD & _)]; [|lia]. rewrite Ha.
      eexists. split; [reflexivity|]. split; [|lia]. intros _. split; [assumption|]. split; [assumption|]. split; [assumption|].
      left. auto.
    + (* give *)
      destruct (thr s !! j) as [u|] eqn:Eu; [|discriminate]. destruct (Nat.eqb_spec i j) as [->|Hij].
      { injection Hs as <-. eexists. split; [reflexivity|]. split; [|lia]. intros _. split; [assumption|]. split; [assumption|]. split; assumption. }
      injection Hs as <-. eexists. split; [reflexivity|]. split; [|cbn; lia]. intros Hb'.
      set (t' := {| own := pred (own t); at_ := Idle |}) in *. set (u' := {| own := S (own u); at_ := at_ u |}) in *.
      specialize (Hset t'). specialize (Hpet t'). cbn [own at_ t'] in Hset, Hpet.
      assert (Eu' : thr (set_thr s i t') !! j = Some u) by (cbn; rewrite list_lookup_insert_ne by assumption; exact Eu).
      pose proof (sum_insert own _ _ u u' Eu') as HA. pose proof (sum_insert pend _ _ u u' Eu') as HB.
      assert (HA' : total (set_thr (set_thr s i t') j u') + own u = total (set_thr s i t') + own u') by exact HA.
      assert (HB' : npend (set_thr (set_thr s i t') j u') + pend u = npend (set_thr s i t') + pend u') by exact HB.
      clear HA HB. cbn [own u'] in HA'. assert (pend u' = pend u) by reflexivity.
      split; [|split; [|split]].
      * cbn. apply Forall_insert; [apply Forall_insert; [assumption|left; reflexivity]|].
        pose proof (Forall_lookup_1 _ _ _ _ Hc Eu) as K. exact K.
      * cbn [cnt set_thr]. rewrite Ec. f_equal. lia.
      * exact Hb'.
      * cbn [alive ndel set_thr]. destruct HD as [(Ha & Hn & HD)|(Ha & _ & HD & _)]; [|lia].
        left. split; [assumption|]. split; [assumption|]. lia.
  - destruct a; try discriminate. injection Hs as <-. unfold check.
    destruct HD as [(Ha & Hn & HD)|(Ha & _ & _ & HD)]; [|lia]. rewrite Ha.
    eexists. split; [reflexivity|]. split; [|cbn; lia]. intros Hb'.
    set (t' := {| own := own t; at_ := Idle |}) in *. specialize (Hset t'). specialize (Hpet t'). cbn [own at_ t'] in Hset, Hpet.
    set (s' := {| cnt := _; alive := _; ndel := _; thr := _ |}) in *.
    assert (E1 : total s' = total (set_thr s i t')) by reflexivity. assert (E2 : npend s' = npend (set_thr s i t')) by reflexivity.
    split; [|split; [|split]].
    + cbn. apply Forall_insert; [assumption|left; reflexivity].
    + cbn [cnt s']. rewrite Ec. f_equal. lia.
    + exact Hb'.
    + right. cbn [alive ndel s']. split; [reflexivity|]. split; [lia|]. lia.
Qed.
Lemma start_inv s : start s -> (N.of_nat (total s) < 2 ^ 32)%N -> cinv s.
Proof.
  intros (Ha & Hn & Hi & Ec & Ht) Hb. split; [|split; [assumption|split; [assumption|]]].
  - eapply Forall_impl; [exact Hi|]. intros t Ht'. left. exact Ht'.
  - left. split; [assumption|]. split; [assumption|]. left. split; [assumption|].
    unfold npend. clear -Hi. induction Hi as [|t l E]; cbn; [reflexivity|]. rewrite E. assumption.
Qed.
Lemma reach_inv s : reach Safe s -> cinv s.
Proof.
  induction 1 as [s Hs Hb|s i a s' Hr IH Hs Hb]; [apply start_inv; assumption|].
  destruct (step_inv s i a _ IH Hs) as (s1 & E & K & _). injection E as <-. apply K. exact Hb.
Qed.

(** ** C43 *)
(** In no schedule does any thread access the object after its deletion, in particular it is not
    deleted twice. *)
Theorem C43_safe s i a : reach Safe s -> step Safe s i a <> Some UB.
Proof. intros Hr Hs. destruct (step_inv s i a _ (reach_inv s Hr) Hs) as (s' & E & _). discriminate. Qed.
Print Assumptions C43_safe.

(** The object is deleted at most once, and not while any thread owns a pointer to it.  use_count()
    is the number of pointers in all threads. *)
Theorem C43_deleted_after_last_release s : reach Safe s ->
  ndel s <= 1 /\ (ndel s = 1 -> Forall (fun t => own t = 0) (thr s)) /\
  (alive s = true -> cnt s = N.of_nat (total s)).
Proof.
  intros Hr. destruct (reach_inv s Hr) as (_ & Ec & _ & HD). split; [lia|]. split; [|intros _; exact Ec].
  intros H1. assert (H0 : total s = 0) by lia. unfold total in H0. clear -H0.
  induction (thr s) as [|t l IH]; cbn in H0; constructor; [lia|]. apply IH. lia.
Qed.
Print Assumptions C43_deleted_after_last_release.

(** When every thread has released its pointers and none is inside an operation, the object has been
    deleted exactly once; and as long as it has not, some thread is about to delete it. *)
Theorem C43_deleted_exactly_once s : reach Safe s -> Forall (fun t => own t = 0) (thr s) ->
  (Forall (fun t => at_ t = Idle) (thr s) -> ndel s = 1 /\ alive s = false) /\
  (ndel s = 0 -> exists i s', step Safe s i Go = Some (Ok s') /\ ndel s' = 1).
Proof.
  intros Hr Hz. destruct (reach_inv s Hr) as (Hc & Ec & _ & HD).
  assert (H0 : total s = 0).
  { unfold total. clear -Hz. induction Hz as [|t l E]; cbn; [reflexivity|]. rewrite E. assumption. }
  split.
  - intros Hi. assert (Hp : npend s = 0).
    { unfold npend. clear -Hi. induction Hi as [|t l E]; cbn; [reflexivity|]. rewrite E. assumption. }
    destruct HD as [(_ & _ & HD)|(Ha & Hn & _)]; [lia|]. auto.
  - intros Hn. destruct HD as [(Ha & _ & HD)|(_ & Hn' & _)]; [|lia]. destruct HD as [[HD _]|[_ Hp]]; [lia|].
    assert (Hex : exists i t, thr s !! i = Some t /\ at_ t = Delete).
    { unfold npend in Hp. clear -Hp. induction (thr s) as [|t l IH]; cbn in Hp; [discriminate|].
      destruct (at_ t) eqn:E; try (destruct IH as (i & u & A & B); [lia|]; exists (S i), u; auto). exists 0, t. auto. }
    destruct Hex as (i & t & Et & Ea). exists i. unfold step. rewrite Et, Ea. unfold check. rewrite Ha.
    eexists. split; [reflexivity|]. cbn. lia.
Qed.
Print Assumptions C43_deleted_exactly_once.

(** The atomic counter is needed: with thread_unsafe_counter two threads that copy concurrently
    lose an increment, and a pointer then outlives the object. *)
Definition two : cst :=
  {| cnt := 2; alive := true; ndel := 0; thr := [{| own := 1; at_ := Idle |}; {| own := 1; at_ := Idle |}] |}.
Fixpoint run (pol : policy) (s : cst) (l : list (nat * act)) : option (res cst) :=
  match l with
  | [] => Some (Ok s)
  | (i, a) :: l' => match step pol s i a with Some (Ok s') => run pol s' l' | r => r end
  end.
Definition race : list (nat * act) :=
  [(0, Copy); (1, Copy); (0, Go); (1, Go); (* 4 owners, count 3 *)
   (0, Drop); (0, Go); (0, Drop); (0, Go); (1, Drop); (1, Go); (1, Go) (* deleted *); (1, Use)].
Theorem C43_unsafe_counter_refuted : start two /\ run Unsafe two race = Some UB.
Proof. split; [repeat split; try constructor; cbn; try reflexivity; try lia; repeat constructor|vm_compute; reflexivity]. Qed.
Print Assumptions C43_unsafe_counter_refuted.

(** Example: three threads, a transfer, and the deletion by the last one. *)
Definition ex_sched : list (nat * act) :=
  [(0, Copy); (0, Give 1); (1, Copy); (0, Drop); (1, Give 2); (1, Use); (2, Use); (1, Drop); (2, Drop); (2, Drop); (2, Go)].
Definition ex_start : cst :=
  {| cnt := 2; alive := true; ndel := 0;
     thr := [{| own := 1; at_ := Idle |}; {| own := 0; at_ := Idle |}; {| own := 1; at_ := Idle |}] |}.
Lemma run_reach s l s' : reach Safe s -> run Safe s l = Some (Ok s') ->
  (forall k sk, run Safe s (firstn k l) = Some (Ok sk) -> (N.of_nat (total sk) < 2 ^ 32)%N) -> reach Safe s'.
Proof.
  revert s. induction l as [|[i a] l IH]; intros s Hr H Hb; cbn in H; [injection H as <-; exact Hr|].
  destruct (step Safe s i a) as [[s1| | | |]|] eqn:E; try discriminate. apply (IH s1).
  - eapply r_step; [exact Hr|exact E|]. apply (Hb 1). cbn. rewrite E. destruct l; reflexivity.
  - exact H.
  - intros k sk Hk. apply (Hb (S k)). cbn. rewrite E. exact Hk.
Qed.
Example ex_reach : exists s, reach Safe s /\ run Safe ex_start ex_sched = Some (Ok s) /\ ndel s = 1 /\ alive s = false.
Proof.
  destruct (run Safe ex_start ex_sched) as [[s| | | |]|] eqn:E; try (vm_compute in E; discriminate).
  exists s. split; [|split; [reflexivity|vm_compute in E; injection E as <-; split; reflexivity]].
  apply (run_reach ex_start ex_sched s).
  - apply r_start; [|vm_compute; reflexivity]. repeat split; try constructor; cbn; try reflexivity; try lia; repeat constructor.
  - exact E.
  - intros k sk Hk. do 12 (destruct k as [|k]; [vm_compute in Hk; injection Hk as <-; vm_compute; reflexivity|]).
    rewrite take_ge in Hk by (cbn; lia). rewrite E in Hk. injection Hk as <-. vm_compute in E. injection E as <-. vm_compute. reflexivity.
Qed.
