(** Callbacks that call parallel containers again while the lock of a submap is held (include/gtl/phmap.hpp 3855-4035,
    4612-4640).  As in Deadlock only locking is modelled; a callback is the list of the calls it makes, so what it
    returns and what it does to the value it is given do not appear.  A callback that throws is one that makes fewer calls:
    the locks are members of guards, which release them on the way out. *)
From stdpp Require Import list list_numbers.
From Coq Require Import Arith Lia.
From Verif.Common Require Import Res.
From Verif.Par Require Import Conc ConcMap Deadlock.
Local Open Scope nat_scope.

(** ** Calls with callbacks *)
Inductive ncall :=
| Do (c : call)                                          (* a call without callback, or whose callback makes no call *)
| HoldX (c i : nat) (body : list ncall)                  (* modify_if, lazy_emplace_l, try_emplace_l, with_submap_m; a mutex
                                                            of the program held around calls is a container only used so *)
| HoldS (c i : nat) (body : list ncall)                  (* if_contains, with_submap *)
| HoldErase (c i : nat) (body : list ncall)              (* erase_if(key, f) that finds the key *)
| EachX (c : nat) (body : nat -> list ncall)             (* for_each_m; [body i]: all calls of the callback for submap i *)
| EachS (c : nat) (body : nat -> list ncall).            (* for_each *)

Section Nested.
Context (dc : disc) (num : nat).
Definition around (m : nat) (d : mode) (l : list act) : list act := Lock m d :: l ++ [Unlock m d].
Fixpoint nacts (x : ncall) : list act :=
  match x with
  | Do c => acts dc num c
  | HoldX c i body => around (mx num c i) Excl (flat_map nacts body)          (* 3889-3900 with UniqueLock, 3943-3969, 4028-4033, 4621-4640 *)
  | HoldS c i body => around (mx num c i) (sm dc) (flat_map nacts body)       (* 3863-3865 and 3889-3900 with SharedLock, 4020-4025 *)
  | HoldErase c i body =>                                                      (* 3914-3934: f runs after switch_to_unique *)
      match dc with
      | Mutex => around (mx num c i) Excl (flat_map nacts body)
      | SharedMutex => [Lock (mx num c i) Shared; Unlock (mx num c i) Shared] ++ around (mx num c i) Excl (flat_map nacts body)
      end
  | EachX c body => each num (fun i => around (mx num c i) Excl (flat_map nacts (body i)))      (* 3988-3994 *)
  | EachS c body => each num (fun i => around (mx num c i) (sm dc) (flat_map nacts (body i)))   (* 3979-3985 *)
  end.
Definition nprog (xs : list ncall) : list act := flat_map nacts xs.

(** ** Which calls a callback may make *)
(** the submaps (container, index) a call locks *)
Definition touches (c : call) (q j : nat) : Prop :=
  match c with
  | KeyX c i | KeyS c i | KeyErase c i _ => q = c /\ j = i
  | SweepX c | SweepS c => q = c /\ j < num
  | Merge a b => a <> b /\ (q = a \/ q = b) /\ j < num
  | Swap a b => (q = a \/ q = b) /\ j < num
  | Eq a b n => (q = a \/ q = b) /\ j < n /\ j < num
  end.
Context (rk : nat -> nat).
(** submap (q, j) comes after every submap in [outer]: its container has a higher number, or it is a later submap of the same container *)
Definition after (outer : list (nat * nat)) (q j : nat) : Prop :=
  forall o k, In (o, k) outer -> rk o < rk q \/ (o = q /\ k < j).
(** [outer]: the submaps whose locks are held by the calls around this one *)
Fixpoint nfine (outer : list (nat * nat)) (x : ncall) : Prop :=
  let all := fix all o l := match l with [] => True | y :: l' => nfine o y /\ all o l' end in
  match x with
  | Do c => call_fine dc num rk c /\ forall q j, touches c q j -> after outer q j
  | HoldX c i body | HoldS c i body | HoldErase c i body => i < num /\ after outer c i /\ all ((c, i) :: outer) body
  | EachX c body | EachS c body => forall i, i < num -> after outer c i /\ all ((c, i) :: outer) (body i)
  end.
Fixpoint nall (o : list (nat * nat)) (l : list ncall) : Prop := match l with [] => True | y :: l' => nfine o y /\ nall o l' end.
End Nested.

Section Ind.
Context (P : ncall -> Prop).
Context (HDo : forall c, P (Do c)) (HX : forall c i l, Forall P l -> P (HoldX c i l)) (HS : forall c i l, Forall P l -> P (HoldS c i l))
  (HE : forall c i l, Forall P l -> P (HoldErase c i l)) (HEX : forall c f, (forall i, Forall P (f i)) -> P (EachX c f))
  (HES : forall c f, (forall i, Forall P (f i)) -> P (EachS c f)).
Fixpoint ncall_rect' (x : ncall) : P x :=
  let all := fix all l : Forall P l := match l with [] => Forall_nil_2 P | y :: l' => Forall_cons_2 P y l' (ncall_rect' y) (all l') end in
  match x with
  | Do c => HDo c | HoldX c i l => HX c i l (all l) | HoldS c i l => HS c i l (all l) | HoldErase c i l => HE c i l (all l)
  | EachX c f => HEX c f (fun i => all (f i)) | EachS c f => HES c f (fun i => all (f i))
  end.
End Ind.

(** ** The programs respect a rank of the mutexes *)
Section Ranked.
Context (dc : disc) (num : nat) (rk : nat -> nat) (Hnum : 1 <= num).
Notation mx := (mx num).
Notation after := (after rk).
Notation nfine := (nfine dc num rk).
Notation nall := (nall dc num rk).
Notation nacts := (nacts dc num).
Definition lrank (m : nat) : nat := rk (m / num) * num + m mod num.
Lemma lrank_mx c i : i < num -> lrank (mx c i) = rk c * num + i.
Proof using Hnum.
  intros Hi. unfold lrank, Deadlock.mx. rewrite Nat.div_add_l by lia. rewrite Nat.div_small by assumption.
  rewrite (Nat.add_comm (c * num) i), Nat.mod_add by lia. rewrite Nat.mod_small by assumption. rewrite Nat.add_0_r. reflexivity.
Qed.
Definition covered (outer : list (nat * nat)) (h : held) : Prop :=
  forall x, In x h -> exists o k, In (o, k) outer /\ k < num /\ fst x = mx o k.
Lemma after_rank outer h q j : covered outer h -> after outer q j -> j < num -> forall x, In x h -> lrank (fst x) < lrank (mx q j).
Proof using Hnum.
  intros Hc Ha Hj x Hx. destruct (Hc x Hx) as (o & k & Ho & Hk & ->). rewrite !lrank_mx by assumption. destruct (Ha o k Ho) as [H|[-> H]]; [|lia].
  assert ((rk o + 1) * num <= rk q * num) by (apply Nat.mul_le_mono_r; lia). lia.
Qed.
Lemma rank_lt a b i : i < num -> rk a < rk b -> lrank (mx a i) < lrank (mx b i).
Proof using Hnum. intros Hi H. rewrite !lrank_mx by assumption. assert ((rk a + 1) * num <= rk b * num) by (apply Nat.mul_le_mono_r; lia). lia. Qed.
Notation wf := (wf lrank).
Lemma nwf_each h n (f : nat -> list act) k : n <= num -> (forall i k, i < n -> wf h k -> wf h (f i ++ k)) -> wf h k -> wf h (each n f ++ k).
Proof using Hnum.
  intros Hn Hf Hk. unfold each. assert (G : forall l, Forall (fun i => i < n) l -> wf h (flat_map f l ++ k)).
  { induction 1 as [|i l Hi _ IH]; [assumption|]. cbn. rewrite <- app_assoc. apply Hf; assumption. }
  apply G. apply Forall_forall. intros i Hi. apply elem_of_seq in Hi. lia.
Qed.
Lemma nwf_one h m d k : (forall x, In x h -> lrank (fst x) < lrank m) -> wf h k -> wf h (Lock m d :: Unlock m d :: k).
Proof using. intros Hr H. cbn [Deadlock.wf]. split; [assumption|]. split; [left; reflexivity|]. rewrite drop_hd. assumption. Qed.
Lemma nwf_two h a b k : (forall x, In x h -> lrank (fst x) < lrank a) -> (forall x, In x h -> lrank (fst x) < lrank b) -> a <> b -> wf h k ->
  wf h (Lock2 a b :: Unlock a Excl :: Unlock b Excl :: k).
Proof using.
  intros Ha Hb Hne H. cbn [Deadlock.wf]. split; [auto|]. split; [assumption|]. split.
  - split; [cbn; auto|]. rewrite drop_ne, drop_hd by assumption. split; [cbn; auto|]. rewrite drop_hd. assumption.
  - split; [cbn; auto|]. rewrite drop_hd. split; [cbn; auto|]. rewrite drop_hd. assumption.
Qed.
Lemma nwf_acts outer h c k : covered outer h -> call_fine dc num rk c -> (forall q j, touches num c q j -> after outer q j) ->
  wf h k -> wf h (acts dc num c ++ k).
Proof using Hnum.
  intros Hcov Hc Ht Hk.
  assert (R : forall q j, j < num -> touches num c q j -> forall x, In x h -> lrank (fst x) < lrank (mx q j)).
  { intros q j Hj Hq. eapply after_rank; eauto. }
  destruct c as [c i|c i|c i found|c|c|a b|a b|a b n]; cbn [acts call_fine touches] in *.
  - apply nwf_one; [|assumption]. apply R; auto.
  - apply nwf_one; [|assumption]. apply R; auto.
  - assert (Q : forall x, In x h -> lrank (fst x) < lrank (mx c i)) by (apply R; auto).
    destruct dc; [apply nwf_one; assumption|]. destruct found; cbn [app]; repeat (apply nwf_one; [assumption|]); assumption.
  - apply nwf_each; [lia| |assumption]. intros. apply nwf_one; [|assumption]. apply R; auto.
  - apply nwf_each; [lia| |assumption]. intros. apply nwf_one; [|assumption]. apply R; auto.
  - destruct (Nat.eqb_spec a b); [assumption|]. apply nwf_each; [lia| |assumption]. intros i k' Hi Hk'.
    apply nwf_two; [apply R; auto|apply R; auto|apply (mx_ne num Hnum); assumption|assumption].
  - apply nwf_each; [lia| |assumption]. intros i k' Hi Hk'. cbn [app Deadlock.wf].
    split; [apply R; auto|]. split; [intros x [<-|Hx]; [cbn [fst]; apply rank_lt; assumption|revert x Hx; apply R; auto]|].
    split; [left; reflexivity|]. rewrite drop_hd. split; [left; reflexivity|]. rewrite drop_hd. assumption.
  - apply nwf_each; [lia| |assumption]. intros i k' Hi Hk'. destruct dc.
    + apply nwf_two; [apply R; auto; lia|apply R; auto; lia|apply (mx_ne num Hnum); [lia|assumption]|assumption].
    + assert (mx a i <> mx b i) by (apply (mx_ne num Hnum); [lia|intros ->; lia]). cbn [app Deadlock.wf].
      split; [apply R; auto; lia|]. split; [intros x [<-|Hx]; [cbn [fst]; apply rank_lt; [lia|assumption]|revert x Hx; apply R; auto; lia]|].
      split; [right; left; reflexivity|]. rewrite drop_ne, drop_hd by assumption. split; [left; reflexivity|]. rewrite drop_hd. assumption.
Qed.
Lemma covered_cons outer h c i d : covered outer h -> i < num -> covered ((c, i) :: outer) ((mx c i, d) :: h).
Proof using.
  intros Hc Hi x [<-|Hx]; [exists c, i; cbn; auto|]. destruct (Hc x Hx) as (o & k & Ho & Hk & He). exists o, k. cbn. auto.
Qed.
(** one callback under one lock *)
Lemma nwf_around outer h c i d body k :
  Forall (fun x => forall outer h k, covered outer h -> nfine outer x -> wf h k -> wf h (nacts x ++ k)) body ->
  covered outer h -> i < num -> after outer c i -> nall ((c, i) :: outer) body -> wf h k ->
  wf h (around (mx c i) d (flat_map nacts body) ++ k).
Proof using Hnum.
  intros IH Hc Hi Ha Hb Hk. unfold around. cbn [app Deadlock.wf]. split; [eapply after_rank; eassumption|]. rewrite <- app_assoc.
  assert (Hc' : covered ((c, i) :: outer) ((mx c i, d) :: h)) by (apply covered_cons; assumption). clear Hc.
  induction IH as [|y l Hy _ IHl]; cbn [flat_map app].
  - cbn [Deadlock.wf]. split; [left; reflexivity|]. rewrite drop_hd. assumption.
  - destruct Hb as [H1 H2]. rewrite <- app_assoc. eapply Hy; [exact Hc'|exact H1|]. apply IHl. assumption.
Qed.
Lemma nwf x : forall outer h k, covered outer h -> nfine outer x -> wf h k -> wf h (nacts x ++ k).
Proof using Hnum.
  induction x as [c|c i l IH|c i l IH|c i l IH|c f IH|c f IH] using ncall_rect'; intros outer h k Hc Hf Hk.
  - destruct Hf as [H1 H2]. eapply nwf_acts; eassumption.
  - destruct Hf as (Hi & Ha & Hb). eapply nwf_around; eassumption.
  - destruct Hf as (Hi & Ha & Hb). eapply nwf_around; eassumption.
  - destruct Hf as (Hi & Ha & Hb). cbn [Nested.nacts]. pose proof (nwf_around outer h c i Excl l k IH Hc Hi Ha Hb Hk) as W.
    pose proof (after_rank outer h c i Hc Ha Hi) as R. clear - W R. destruct dc; [exact W|]. rewrite <- app_assoc. apply nwf_one; assumption.
  - cbn [Nested.nacts]. apply nwf_each; [lia| |assumption]. intros i k' Hi Hk'. destruct (Hf i Hi) as [Ha Hb]. eapply nwf_around; [apply IH|eassumption..].
  - cbn [Nested.nacts]. apply nwf_each; [lia| |assumption]. intros i k' Hi Hk'. destruct (Hf i Hi) as [Ha Hb]. eapply nwf_around; [apply IH|eassumption..].
Qed.
Lemma nstart_ok (progs : list (list ncall)) : Forall (Forall (nfine [])) progs -> ok lrank (dstart (map (nprog dc num) progs)).
Proof using Hnum.
  intros H. unfold dstart. rewrite map_map. apply Forall_forall. intros t Ht. apply elem_of_list_fmap in Ht. destruct Ht as (cs & -> & Hcs).
  rewrite Forall_forall in H. specialize (H cs Hcs). cbn [t_held t_todo]. unfold nprog. clear Hcs.
  induction H as [|c cs Hc _ IH]; [reflexivity|]. cbn [flat_map]. eapply (nwf c []); [intros x []|assumption|assumption].
Qed.
End Ranked.

(** ** Programs without std::lock *)
Section Plain.
Context (dc : disc) (num : nat).
Definition plain_call (c : call) : Prop := match c, dc with Merge a b, _ => a = b | Eq _ _ _, Mutex => False | _, _ => True end.
Fixpoint nplain (x : ncall) : Prop :=
  let all := fix all l := match l with [] => True | y :: l' => nplain y /\ all l' end in
  match x with
  | Do c => plain_call c
  | HoldX _ _ l | HoldS _ _ l | HoldErase _ _ l => all l
  | EachX _ f | EachS _ f => forall i, all (f i)
  end.
Fixpoint nplains (l : list ncall) : Prop := match l with [] => True | y :: l' => nplain y /\ nplains l' end.
Lemma plain_each n f : (forall i, forallb plain (f i) = true) -> forallb plain (each n f) = true.
Proof using. intros Hf. unfold each. generalize 0. induction n as [|n IH]; intros j; [reflexivity|]. cbn. rewrite forallb_app, Hf, IH. reflexivity. Qed.
Lemma plain_acts c : plain_call c -> forallb plain (acts dc num c) = true.
Proof using.
  unfold plain_call. intros Hc. destruct c as [c i|c i|c i found|c|c|a b|a b|a b n]; cbn [acts].
  - reflexivity.
  - reflexivity.
  - destruct dc; [reflexivity|]. destruct found; reflexivity.
  - apply plain_each. reflexivity.
  - apply plain_each. reflexivity.
  - subst. rewrite Nat.eqb_refl. reflexivity.
  - apply plain_each. reflexivity.
  - destruct dc; [destruct Hc|]. apply plain_each. reflexivity.
Qed.
Lemma plain_around m d body : Forall (fun x => nplain x -> forallb plain (nacts dc num x) = true) body -> nplains body ->
  forallb plain (around m d (flat_map (nacts dc num) body)) = true.
Proof using.
  intros IH Hb. unfold around. cbn [forallb plain]. cbn [andb]. rewrite forallb_app. cbn. rewrite andb_true_r.
  induction IH as [|y l Hy _ IHl]; [reflexivity|]. destruct Hb as [H1 H2]. cbn [flat_map]. rewrite forallb_app, Hy, IHl by assumption. reflexivity.
Qed.
Lemma plain_nacts x : nplain x -> forallb plain (nacts dc num x) = true.
Proof using.
  induction x as [c|c i l IH|c i l IH|c i l IH|c f IH|c f IH] using ncall_rect'; intros Hp.
  - apply plain_acts. exact Hp.
  - apply plain_around; assumption.
  - apply plain_around; assumption.
  - cbn [nacts]. pose proof (plain_around (mx num c i) Excl l IH Hp) as W. clear - W. destruct dc; [exact W|]. rewrite forallb_app, W. reflexivity.
  - cbn [nacts]. apply plain_each. intros i. apply plain_around; [apply IH|apply Hp].
  - cbn [nacts]. apply plain_each. intros i. apply plain_around; [apply IH|apply Hp].
Qed.
End Plain.
