(** C81: binary_search of adv_utils.hpp with any type, any middle function, and predicates that have a state or throw. *)
From Coq Require Import ZArith List Lia Bool Arith.
From Verif.Common Require Import Res.
From Verif.Misc Require Import Search.
Import ListNotations.
Local Open Scope nat_scope.

(** ** Model *)
(** What a search does: [Aborted]: the assertion of line 55 fails; [Running]: the fuel is used up. *)
Inductive found (T : Type) := Found (a b : T) | Threw | Aborted | Running.
Arguments Found {T}. Arguments Threw {T}. Arguments Aborted {T}. Arguments Running {T}.

Section Model.
Context {T St : Type}.
(** User code: a call changes the state [St] of the program and answers, or throws ([None]). *)
Context (middle : St -> T -> T -> St * option (option T)) (pred : St -> T -> St * option bool).
(** [dbg]: built with assertions. *)
Context (dbg : bool).

(* adv_utils.hpp:55 assert(pred(l) == false && pred(r) == true): pred(r) is not called if pred(l) is true.
   [None]: passed. *)
Definition check (s : St) (l r : T) : St * option (found T) :=
  match pred s l with
  | (s, None) => (s, Some Threw)
  | (s, Some true) => (s, Some Aborted)
  | (s, Some false) =>
    match pred s r with
    | (s, None) => (s, Some Threw)
    | (s, Some false) => (s, Some Aborted)
    | (s, Some true) => (s, None)
    end
  end.
(* adv_utils.hpp:51-63 binary_search, fuelled.  Simplified: the functions are called in one way, whether they were passed as
   lvalues or rvalues.  Also returns the points at which line 59 evaluated the predicate with the answers, in order. *)
Fixpoint search (fuel : nat) (s : St) (l r : T) : St * found T * list (T * bool) :=
  match fuel with
  | O => (s, Running, [])
  | S f =>
    let (s, c) := if dbg then check s l r else (s, None) in
    match c with
    | Some o => (s, o, [])
    | None =>
      match middle s l r with
      | (s, None) => (s, Threw, [])
      | (s, Some None) => (s, Found l r, [])
      | (s, Some (Some m)) =>
        match pred s m with
        | (s, None) => (s, Threw, [])
        | (s, Some b) => let '(s, o, tr) := if b then search f s l m else search f s m r in (s, o, (m, b) :: tr)
        end
      end
    end
  end.
End Model.

(** ** Specification *)
(** the last point of the log at which the answer was [b], or [d] *)
Fixpoint last_answer {T} (b : bool) (d : T) (tr : list (T * bool)) : T :=
  match tr with [] => d | (m, b') :: tr' => last_answer b (if eqb b b' then m else d) tr' end.
(** the points the middle function may be asked to choose go strictly down in some measure of the interval *)
Definition shrinks {T St} (middle : St -> T -> T -> St * option (option T)) (width : T -> T -> nat) : Prop :=
  forall s l r s' m, middle s l r = (s', Some (Some m)) -> width l m < width l r /\ width m r < width l r.
(** a function without state that does not throw *)
Definition pure1 {T} (p : T -> bool) : unit -> T -> unit * option bool := fun _ x => (tt, Some (p x)).
Definition pure2 {T} (mid : T -> T -> option T) : unit -> T -> T -> unit * option (option T) := fun _ l r => (tt, Some (mid l r)).

(** ** Any type, any middle function that shrinks, any predicate *)
Section Any.
Context {T St : Type} (middle : St -> T -> T -> St * option (option T)) (pred : St -> T -> St * option bool).

(** C81.  Whatever the predicate answers, and whether it throws: a search without assertions ends after at most [width l r]
    evaluations.  If it returns, it returns the last point at which the predicate answered false and the last at which it
    answered true (the ends of the range if there is none), and the middle function had no point between them.  Otherwise
    user code threw. *)
Theorem C81_search : forall width, shrinks middle width -> forall fuel s l r, width l r < fuel ->
  let '(s', o, tr) := search middle pred false fuel s l r in
  length tr <= width l r /\
  match o with
  | Found a b => a = last_answer false l tr /\ b = last_answer true r tr /\ exists s0, middle s0 a b = (s', Some None)
  | Threw => (exists s0 a b, middle s0 a b = (s', None)) \/ (exists s0 x, pred s0 x = (s', None))
  | Aborted | Running => False
  end.
Proof.
  intros width Hw. induction fuel as [|f IH]; intros s l r Hf; [lia|]. cbn [search]. destruct (middle s l r) as [s1 [[m|]|]] eqn:Hm.
  - destruct (Hw _ _ _ _ _ Hm) as [H1 H2]. destruct (pred s1 m) as [s2 [[|]|]] eqn:Hp.
    + specialize (IH s2 l m ltac:(lia)). destruct (search middle pred false f s2 l m) as [[s3 o] tr]. destruct IH as [Hl Ho].
      split; [cbn [length]; lia|]. destruct o; assumption.
    + specialize (IH s2 m r ltac:(lia)). destruct (search middle pred false f s2 m r) as [[s3 o] tr]. destruct IH as [Hl Ho].
      split; [cbn [length]; lia|]. destruct o; assumption.
    + split; [cbn; lia|]. right. eauto.
  - split; [cbn; lia|]. cbn [last_answer]. eauto.
  - split; [cbn; lia|]. left. eauto.
Qed.

(** More fuel changes nothing: the answer is that of the unbounded recursion. *)
Theorem C81_fuel : forall dbg fuel fuel' s l r, fuel <= fuel' -> snd (fst (search middle pred dbg fuel s l r)) <> Running ->
  search middle pred dbg fuel' s l r = search middle pred dbg fuel s l r.
Proof.
  intros dbg. induction fuel as [|f IH]; intros fuel' s l r Hf Hr; [destruct Hr; reflexivity|]. destruct fuel' as [|f']; [lia|].
  cbn [search] in *. destruct (if dbg then check pred s l r else (s, None)) as [s1 [c|]]; [reflexivity|].
  destruct (middle s1 l r) as [s2 [[m|]|]]; try reflexivity. destruct (pred s2 m) as [s3 [[|]|]]; try reflexivity.
  - rewrite (IH f'); [reflexivity|lia|]. destruct (search middle pred dbg f s3 l m) as [[s4 o] tr]. exact Hr.
  - rewrite (IH f'); [reflexivity|lia|]. destruct (search middle pred dbg f s3 m r) as [[s4 o] tr]. exact Hr.
Qed.
End Any.
Print Assumptions C81_search.
Print Assumptions C81_fuel.

(** ** Ordered types *)
Section Ordered.
Context {T : Type} (lt : T -> T -> Prop) (Htrans : forall x y z, lt x y -> lt y z -> lt x z).
Context (mid : T -> T -> option T) (pred : T -> bool).
Context (Hmid : forall l r m, lt l r -> mid l r = Some m -> lt l m /\ lt m r).

(** C81.  Any order and any middle function strictly between, with or without assertions: if the predicate is false at l and true
    at r, no assertion fails, and a search that ends returns a < b in the range with nothing between them for the middle function,
    the predicate false at a and true at b; if it is monotone, false up to a and true from b on.  Points are only evaluated
    strictly between l and r. *)
Theorem C81_ordered : forall dbg fuel l r, lt l r -> pred l = false -> pred r = true ->
  let '(_, o, tr) := search (pure2 mid) (pure1 pred) dbg fuel tt l r in
  Forall (fun x => lt l (fst x) /\ lt (fst x) r /\ snd x = pred (fst x)) tr /\
  match o with
  | Found a b => lt a b /\ (a = l \/ lt l a) /\ (b = r \/ lt b r) /\ pred a = false /\ pred b = true /\ mid a b = None /\
      ((forall x y, lt x y -> pred x = true -> pred y = true) -> (forall x, lt x a -> pred x = false) /\ (forall x, lt b x -> pred x = true))
  | Running => True
  | Threw | Aborted => False
  end.
Proof using Htrans Hmid.
  intros dbg. induction fuel as [|f IH]; intros l r Hlr Hl Hr; [split; [constructor|exact I]|]. cbn [search].
  assert (Hc : (if dbg then check (pure1 pred) tt l r else (tt, None)) = (tt, None)).
  { destruct dbg; [|reflexivity]. unfold check, pure1. rewrite Hl, Hr. reflexivity. }
  rewrite Hc. unfold pure2 at 1. destruct (mid l r) as [m|] eqn:Hm.
  - destruct (Hmid _ _ _ Hlr Hm) as [H1 H2]. unfold pure1 at 1. destruct (pred m) eqn:Hp.
    + specialize (IH l m H1 Hl Hp). destruct (search (pure2 mid) (pure1 pred) dbg f tt l m) as [[s o] tr]. destruct IH as [Ht Ho]. split.
      * constructor; [cbn; auto|]. eapply Forall_impl; [|exact Ht]. cbn. intros x (A & B & C). split; [assumption|]. split; [|assumption]. eapply Htrans; eassumption.
      * destruct o; try assumption. destruct Ho as (A & B & C & D). split; [assumption|]. split; [assumption|]. split; [|assumption].
        right. destruct C as [->|C]; [assumption|]. eapply Htrans; eassumption.
    + specialize (IH m r H2 Hp Hr). destruct (search (pure2 mid) (pure1 pred) dbg f tt m r) as [[s o] tr]. destruct IH as [Ht Ho]. split.
      * constructor; [cbn; auto|]. eapply Forall_impl; [|exact Ht]. cbn. intros x (A & B & C). split; [|auto]. eapply Htrans; eassumption.
      * destruct o; try assumption. destruct Ho as (A & B & C & D). split; [assumption|]. split; [|split; assumption].
        right. destruct B as [->|B]; [assumption|]. eapply Htrans; eassumption.
  - split; [constructor|]. split; [assumption|]. split; [auto|]. split; [auto|]. split; [assumption|]. split; [assumption|]. split; [assumption|].
    intros Hmon. split; [|intros x Hx; eapply Hmon; eassumption]. intros x Hx. destruct (pred x) eqn:E; [|reflexivity]. rewrite (Hmon x l Hx E) in Hl. discriminate.
Qed.
End Ordered.
Print Assumptions C81_ordered.

(** C81.  If the predicate has no state and does not throw, is false at l and true at r, the assertions change nothing. *)
Theorem C81_debug_same : forall T (mid : T -> T -> option T) (pred : T -> bool) fuel l r, pred l = false -> pred r = true ->
  search (pure2 mid) (pure1 pred) true fuel tt l r = search (pure2 mid) (pure1 pred) false fuel tt l r.
Proof.
  intros T mid pred. induction fuel as [|f IH]; intros l r Hl Hr; [reflexivity|]. cbn [search].
  assert (Hc : check (pure1 pred) tt l r = (tt, None)) by (unfold check, pure1; rewrite Hl, Hr; reflexivity). rewrite Hc.
  change (pure2 mid tt l r) with (tt, Some (mid l r)). cbv iota beta. destruct (mid l r) as [m|]; [|reflexivity].
  change (pure1 pred tt m) with (tt, Some (pred m)). cbv iota beta. destruct (pred m) eqn:Hp; rewrite IH by assumption; reflexivity.
Qed.
Print Assumptions C81_debug_same.
(** C81.  With assertions a search returns only if the predicate is false at l and true at r; otherwise it aborts before any other call. *)
Theorem C81_asserts : forall T (mid : T -> T -> option T) (pred : T -> bool) fuel l r, pred l = true \/ pred r = false ->
  search (pure2 mid) (pure1 pred) true (S fuel) tt l r = (tt, Aborted, []).
Proof.
  intros T mid pred fuel l r H. cbn [search].
  assert (Hc : check (pure1 pred) tt l r = (tt, Some Aborted)).
  { unfold check, pure1. destruct (pred l); [reflexivity|]. destruct H as [H|H]; [discriminate|]. rewrite H. reflexivity. }
  rewrite Hc. reflexivity.
Qed.
Print Assumptions C81_asserts.
Example C81_asserts_example : search (pure2 (fun l r => if 1 <? r - l then Some (l + 1) else None)) (pure1 (fun x => x <? 5)) true 9 tt 6 8 = (tt, Aborted, []).
Proof. apply C81_asserts. right. reflexivity. Qed.

(** ** Integers, with predicates that answer anything *)
(** middle<integral> (77-84), as a function that neither has a state nor throws; overflow of r - l (C44_search_refuted) is excluded in the
    theorem by [sub_fits] *)
Definition int_middle {St} (t : ity) (s : St) (l r : Z) : St * option (option Z) :=
  (s, match middle_int t l r with Ok o => Some o | _ => None end).
Section Int.
Context {St : Type} (pred : St -> Z -> St * option bool) (t : ity) (Hb : (0 < i_bits t)%Z).
(** C81.  A search of 2^n or fewer integers evaluates the predicate at most n times and returns neighbours, whatever the predicate
    answers. *)
Theorem C81_int : forall (n : nat) fuel s l r, in_ty t l -> in_ty t r -> (l < r)%Z -> (r - l <= 2 ^ Z.of_nat n)%Z -> sub_fits t l r -> n < fuel ->
  let '(s', o, tr) := search (int_middle t) pred false fuel s l r in
  length tr <= n /\ Forall (fun x => (l < fst x < r)%Z) tr /\
  match o with
  | Found a b => (l <= a /\ b = a + 1 /\ b <= r)%Z /\ a = last_answer false l tr /\ b = last_answer true r tr
  | Threw => exists s0 x, pred s0 x = (s', None)
  | Aborted | Running => False
  end.
Proof using Hb.
  induction n as [|n IH]; intros fuel s l r Hl Hr Hlt Hd Hf Hfu; (destruct fuel as [|f]; [lia|]); cbn [search];
    unfold int_middle at 1; rewrite middle_int_ok by assumption.
  - change (2 ^ Z.of_nat 0)%Z with 1%Z in Hd. destruct (Z.ltb_spec 1 (r - l)); [lia|]. cbn. split; [lia|]. split; [constructor|]. lia.
  - destruct (Z.ltb_spec 1 (r - l)) as [H1|H1].
    + destruct (mid_bounds (r - l) (2 ^ Z.of_nat n) H1) as ((Ha & Hc) & He & Hg).
      { rewrite Nat2Z.inj_succ, Z.pow_succ_r in Hd by lia. lia. }
      set (m := (l + (r - l) / 2)%Z) in *. assert (Hlm : (l < m < r)%Z) by (unfold m; lia).
      assert (Hm : in_ty t m) by (unfold in_ty in *; lia).
      destruct (pred s m) as [s1 [[|]|]] eqn:Hp.
      * specialize (IH f s1 l m Hl Hm ltac:(lia) ltac:(unfold m; lia) ltac:(intros Q; specialize (Hf Q); lia) ltac:(lia)).
        destruct (search (int_middle t) pred false f s1 l m) as [[s2 o] tr]. destruct IH as (A & B & C). split; [cbn; lia|]. split.
        { constructor; [cbn; lia|]. eapply Forall_impl; [|exact B]. cbn. intros; lia. }
        destruct o; try assumption. destruct C as (C & D & E). split; [lia|]. split; assumption.
      * specialize (IH f s1 m r Hm Hr ltac:(lia) ltac:(unfold m; lia) ltac:(intros Q; specialize (Hf Q); lia) ltac:(lia)).
        destruct (search (int_middle t) pred false f s1 m r) as [[s2 o] tr]. destruct IH as (A & B & C). split; [cbn; lia|]. split.
        { constructor; [cbn; lia|]. eapply Forall_impl; [|exact B]. cbn. intros; lia. }
        destruct o; try assumption. destruct C as (C & D & E). split; [lia|]. split; assumption.
      * split; [cbn; lia|]. split; [constructor|]. eauto.
    + cbn. split; [lia|]. split; [constructor|]. lia.
Qed.
End Int.
Print Assumptions C81_int.

(** ** What is not so *)
(** A middle function that answers an end of the interval keeps the search running for ever. *)
Theorem C81_bad_middle_refuted : exists (mid : Z -> Z -> option Z) (pred : Z -> bool) (l r : Z), (l < r)%Z /\ pred l = false /\ pred r = true /\
  (forall x y m, (x < y)%Z -> mid x y = Some m -> (x <= m < y)%Z) /\
  forall fuel, snd (fst (search (pure2 mid) (pure1 pred) false fuel tt l r)) = Running.
Proof.
  exists (fun x y => if (x <? y)%Z then Some ((x + y) / 2)%Z else None), (fun x => (1 <=? x)%Z), 0%Z, 1%Z.
  split; [lia|]. split; [reflexivity|]. split; [reflexivity|]. split.
  - intros x y m Hxy. destruct (Z.ltb_spec x y); [|discriminate]. intros [= <-]. split; [apply Z.div_le_lower_bound; lia|apply Z.div_lt_upper_bound; lia].
  - induction fuel as [|f IH]; [reflexivity|]. cbn [search]. change (pure2 _ tt 0%Z 1%Z) with (tt, Some (Some 0%Z)). cbv iota beta.
    change (pure1 _ tt 0%Z) with (tt, Some false). cbv iota beta. destruct (search _ _ false f tt 0%Z 1%Z) as [[s o] tr]. exact IH.
Qed.
Print Assumptions C81_bad_middle_refuted.
(** The assertions call the predicate too: one that counts its calls gives different answers in builds with and without them, or
    aborts, though its answers at the ends are the required ones. *)
Definition i32 : ity := {| i_signed := true; i_bits := 32 |}.
Theorem C81_debug_refuted : exists (pred pred' : nat -> Z -> nat * option bool) l r,
  (forall s, snd (pred s l) = Some false /\ snd (pred s r) = Some true) /\
  (exists a b a' b', snd (fst (search (int_middle i32) pred false 99 0 l r)) = Found a b /\ snd (fst (search (int_middle i32) pred true 99 0 l r)) = Found a' b' /\ a <> a') /\
  (forall s, snd (pred' s l) = Some false /\ snd (pred' s r) = Some true) /\
  (exists a b, snd (fst (search (int_middle i32) pred' false 99 0 l r)) = Found a b) /\
  snd (fst (search (int_middle i32) pred' true 99 0 l r)) = Aborted.
Proof.
  exists (fun s x => (S s, Some (if (x =? 0)%Z then false else if (x =? 8)%Z then true else if (x =? 4)%Z then 2 <=? s else (4 <? x)%Z))).
  exists (fun s x => (S s, Some (if (x =? 0)%Z then false else if (x =? 8)%Z then true else Nat.even s))), 0%Z, 8%Z.
  split; [intros s; split; reflexivity|]. split; [|split; [intros s; split; reflexivity|split; [do 2 eexists; vm_compute; reflexivity|vm_compute; reflexivity]]].
  do 4 eexists. split; [vm_compute; reflexivity|]. split; [vm_compute; reflexivity|]. lia.
Qed.
Print Assumptions C81_debug_refuted.

(** ** Examples *)
Definition halves (l r : nat) : option nat := if 1 <? r - l then Some (l + (r - l) / 2) else None.
Example C81_shrinks_example : @shrinks nat unit (pure2 halves) (fun l r => r - l).
Proof.
  intros s l r s' m H. unfold pure2, halves in H. destruct (Nat.ltb_spec 1 (r - l)); [|discriminate]. assert (m = l + (r - l) / 2) as -> by congruence.
  assert (1 <= (r - l) / 2) by (apply Nat.div_le_lower_bound; lia). assert ((r - l) / 2 < r - l) by (apply Nat.div_lt; lia). lia.
Qed.
Example C81_ordered_example : forall l r m, l < r -> halves l r = Some m -> l < m /\ m < r.
Proof.
  intros l r m Hl H. assert (Q : pure2 halves tt l r = (tt, Some (Some m))) by (unfold pure2; rewrite H; reflexivity).
  pose proof (C81_shrinks_example tt l r tt m Q) as A. cbv beta in A. lia.
Qed.
Example C81_run_example : search (pure2 halves) (pure1 (fun x => 700 <=? x)) true 99 tt 0 1000 =
  (tt, Found 699 700, [(500, false); (750, true); (625, false); (687, false); (718, true); (702, true); (694, false); (698, false); (700, true); (699, false)]).
Proof. vm_compute. reflexivity. Qed.
(** a predicate that throws at its third call *)
Example C81_throw_example : search (int_middle i32) (fun s x => (S s, if s =? 2 then None else Some (7 <=? x)%Z)) false 99 0 0%Z 16%Z =
  (3, Threw, [(8%Z, true); (4%Z, false)]).
Proof. vm_compute. reflexivity. Qed.
