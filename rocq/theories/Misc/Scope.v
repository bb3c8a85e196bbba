(** C48: scope guards and timestamps (utils.hpp). *)
From stdpp Require Import list list_numbers.
From Coq Require Import NArith ZArith Lia.
From Coq Require Import ZifyBool ZifyNat ZifyN.
From Verif.Common Require Import Res Word.
Open Scope nat_scope.
Open Scope res_scope.

(** ** Scope guards: model
    Programs over variables, with guards nested like the blocks that declare them.  A value is an
    integer or [Moved], the unspecified value left behind by a move of a type like std::string
    ([trivial = false]); moving a type like int ([trivial = true]) leaves the value in place. *)
Inductive value := V (z : Z) | Moved.
Inductive expr := EConst (z : Z) | EVar (y : nat). (* EVar is an lvalue: V&& binds to the variable itself *)
(** Exit actions and other observable effects are numbered events. *)
Inductive event :=
| Act (a : nat)           (* a call of a user function *)
| Dismissed (level : nat). (* dismiss() was called on the guard at this nesting level *)
Global Instance event_eq_dec : EqDecision event.
Proof. solve_decision. Defined.
Global Instance value_eq_dec : EqDecision value.
Proof. solve_decision. Defined.
Inductive stmt :=
| SSkip
| SSeq (s1 s2 : stmt)
| SAssign (x : nat) (e : expr)
| SAct (a : nat)
| SThrow
| SCatch (s : stmt)                                            (* try { s } catch (...) {} *)
| SSetValue (x : nat) (e : expr) (do_it : bool) (body : stmt)  (* { scoped_set_value g(x, e, do_it); body } *)
| SGuard (a : nat) (do_it : bool) (body : stmt)                (* { scoped_guard g([]{a}, do_it); body } *)
| SSetUnset (a : nat) (throws : bool) (b : nat) (do_it : bool) (body : stmt)
    (* { scoped_set_unset g([]{a; may throw}, []{b}, do_it); body } *)
| SDismiss (k : nat).                                          (* dismiss() on the k-th enclosing guard, 0 the innermost *)

Record state := { store : list value; flags : list bool (* do_it_ of the live guards, innermost first *); trace : list event }.
Inductive outcome := Normal | Thrown.

Section Trivial.
Variable trivial : bool. (* of the type of the variables *)
Definition set_store (s : state) m : state := {| store := m; flags := flags s; trace := trace s |}.
Definition set_flags (s : state) f : state := {| store := store s; flags := f; trace := trace s |}.
Definition emit (s : state) e : state := {| store := store s; flags := flags s; trace := trace s ++ [e] |}.
Definition eval (m : list value) (e : expr) : res value :=
  match e with EConst z => Ok (V z) | EVar y => of_option (m !! y) end.
Definition leave (v : value) : value := if trivial then v else Moved.

(** The guard of a block is destroyed whether the body ends normally or by an exception; its exit
    code runs if do_it_ is still set.  (Exit actions that throw call std::terminate: not modelled.) *)
Fixpoint exec (p : stmt) (s : state) : res (outcome * state) :=
  match p with
  | SSkip => Ok (Normal, s)
  | SSeq p1 p2 => let* r := exec p1 s in match r with (Normal, s1) => exec p2 s1 | (Thrown, s1) => Ok (Thrown, s1) end
  | SAssign x e =>
    let* v := eval (store s) e in let* _ := of_option (store s !! x) in
    Ok (Normal, set_store s (<[x := v]> (store s)))
  | SAct a => Ok (Normal, emit s (Act a))
  | SThrow => Ok (Thrown, s)
  | SCatch p1 => let* r := exec p1 s in Ok (Normal, snd r)
  | SSetValue x e d body =>
    (* utils.hpp:101-110: [old_value_ = std::move(v_); v_ = std::forward<V>(val)] if do_it *)
    let* old := of_option (store s !! x) in
    let* s1 := (if d then
                  let m := <[x := leave old]> (store s) in
                  let* v := eval m e in Ok (set_store s (<[x := v]> m))
                else let* _ := eval (store s) e in Ok s) in
    let* r := exec body (set_flags s1 (d :: flags s1)) in
    let s2 := snd r in
    match flags s2 with
    | f :: fl =>
      (* utils.hpp:112-115: [if (do_it_) v_ = std::move(old_value_)] *)
      let* _ := of_option (store s2 !! x) in
      let m := if f then <[x := old]> (store s2) else store s2 in
      Ok (fst r, {| store := m; flags := fl; trace := trace s2 |})
    | [] => UB
    end
  | SGuard a d body =>
    (* utils.hpp:68-75 *)
    let* r := exec body (set_flags s (d :: flags s)) in
    let s2 := snd r in
    match flags s2 with
    | f :: fl => let s3 := set_flags s2 fl in Ok (fst r, if f then emit s3 (Act a) else s3)
    | [] => UB
    end
  | SSetUnset a throws b d body =>
    (* utils.hpp:31-42: the set function runs in the constructor; if it throws there is no guard *)
    let s1 := if d then emit s (Act a) else s in
    if d && throws then Ok (Thrown, s1)
    else
      let* r := exec body (set_flags s1 (d :: flags s1)) in
      let s2 := snd r in
      match flags s2 with
      | f :: fl => let s3 := set_flags s2 fl in Ok (fst r, if f then emit s3 (Act b) else s3)
      | [] => UB
      end
  | SDismiss k =>
    let* _ := of_option (flags s !! k) in
    Ok (Normal, emit (set_flags s (<[k := false]> (flags s))) (Dismissed (length (flags s) - 1 - k)))
  end.

(** ** Specification *)
(** variables exist and dismiss() refers to an enclosing guard *)
Fixpoint wf (nvars depth : nat) (p : stmt) : Prop :=
  match p with
  | SSkip | SAct _ | SThrow => True
  | SSeq p1 p2 => wf nvars depth p1 /\ wf nvars depth p2
  | SAssign x e => x < nvars /\ match e with EVar y => y < nvars | _ => True end
  | SCatch p => wf nvars depth p
  | SSetValue x e _ b => x < nvars /\ match e with EVar y => y < nvars | _ => True end /\ wf nvars (S depth) b
  | SGuard _ _ b | SSetUnset _ _ _ _ b => wf nvars (S depth) b
  | SDismiss k => k < depth
  end.

(** Every execution adds events to the trace and neither creates nor removes guards or variables of
    its surroundings; the guards it dismisses are the ones whose [Dismissed] events it adds. *)
Definition dismisses (n : nat) (t : list event) : Prop := Dismissed n ∈ t.
Global Instance dismisses_dec n t : Decision (dismisses n t).
Proof. unfold dismisses. apply _. Defined.
Lemma exec_ok p : forall s, wf (length (store s)) (length (flags s)) p -> exists o s' t,
  exec p s = Ok (o, s') /\ trace s' = trace s ++ t /\ length (store s') = length (store s) /\
  length (flags s') = length (flags s) /\
  (forall k f, flags s !! k = Some f ->
     exists f', flags s' !! k = Some f' /\
       (f' = true <-> f = true /\ ~ dismisses (length (flags s) - 1 - k) t)).
Proof using Type.
  assert (Hself : forall (fl : list bool) k f, fl !! k = Some f -> exists f', fl !! k = Some f' /\
    (f' = true <-> f = true /\ ~ dismisses (length fl - 1 - k) [])).
  { intros fl k f Hf. exists f. split; [assumption|]. unfold dismisses. rewrite elem_of_nil. tauto. }
  induction p; intros s Hw; cbn [exec]; cbn [wf] in Hw.
  - exists Normal, s, []. rewrite app_nil_r. repeat split; auto; try lia.
  - destruct Hw as [H1 H2]. destruct (IHp1 s H1) as (o & s1 & t1 & E1 & T1 & L1 & F1 & K1). rewrite E1. cbn [rbind].
    destruct o; [|exists Thrown, s1, t1; repeat split; auto; lia].
    destruct (IHp2 s1) as (o & s2 & t2 & E2 & T2 & L2 & F2 & K2); [rewrite L1, F1; assumption|].
    exists o, s2, (t1 ++ t2). split; [exact E2|]. split; [rewrite T2, T1, app_assoc; reflexivity|].
    split; [lia|]. split; [lia|]. intros k f Hf. destruct (K1 k f Hf) as (f1 & Hf1 & I1).
    destruct (K2 k f1 Hf1) as (f2 & Hf2 & I2). exists f2. split; [assumption|]. rewrite I2, I1, F1.
    unfold dismisses. rewrite elem_of_app. tauto.
  - destruct Hw as [Hx He]. destruct (lookup_lt_is_Some_2 _ _ Hx) as [old Ho].
    assert (exists v, eval (store s) e = Ok v) as [v Hv].
    { destruct e as [z|y]; cbn; [eauto|]. destruct (lookup_lt_is_Some_2 _ _ He) as [v Hv]. rewrite Hv. cbn. eauto. }
    rewrite Hv, Ho. cbn [rbind of_option]. exists Normal, (set_store s (<[x := v]> (store s))), [].
    rewrite app_nil_r. cbn. rewrite insert_length. repeat split; auto; lia.
  - exists Normal, (emit s (Act a)), [Act a]. cbn. split; [reflexivity|]. repeat split; auto; try lia.
    intros k f Hf. exists f. split; [assumption|]. unfold dismisses. rewrite elem_of_list_singleton. intuition congruence.
  - exists Thrown, s, []. rewrite app_nil_r. repeat split; auto; try lia.
  - destruct (IHp s Hw) as (o & s1 & t1 & E1 & T1 & L1 & F1 & K1). rewrite E1. cbn [rbind snd].
    exists Normal, s1, t1. repeat split; auto; lia.
  - destruct Hw as (Hx & He & Hb). destruct (lookup_lt_is_Some_2 _ _ Hx) as [old Ho]. rewrite Ho. cbn [rbind of_option].
    match goal with |- context [rbind ?c _] =>
      match c with context [if do_it then _ else _] =>
        assert (exists s1, c = Ok s1 /\ length (store s1) = length (store s) /\ flags s1 = flags s /\ trace s1 = trace s) as (s1 & E1 & L1 & F1 & T1)
      end end.
    { destruct do_it.
      - destruct e as [z|y]; cbn.
        + eexists. split; [reflexivity|]. cbn. rewrite !insert_length. auto.
        + assert (Hy : y < length (<[x := leave old]> (store s))) by (rewrite insert_length; exact He).
          destruct (lookup_lt_is_Some_2 _ _ Hy) as [v Hv]. rewrite Hv. cbn.
          eexists. split; [reflexivity|]. cbn. rewrite !insert_length. auto.
      - destruct e as [z|y]; cbn.
        + eexists. split; [reflexivity|]. auto.
        + destruct (lookup_lt_is_Some_2 _ _ He) as [v Hv]. rewrite Hv. cbn. eexists. split; [reflexivity|]. auto. }
    rewrite E1. cbn [rbind].
    destruct (IHp (set_flags s1 (do_it :: flags s1))) as (o & s2 & t & E2 & T2 & L2 & F2 & K2).
    { cbn. rewrite L1, F1. exact Hb. }
    rewrite E2. cbn [rbind snd fst]. cbn in L2, F2, T2, K2. rewrite F1 in F2, K2.
    destruct (flags s2) as [|f fl] eqn:Ef; [discriminate|].
    assert (Hx2 : x < length (store s2)) by lia. destruct (lookup_lt_is_Some_2 _ _ Hx2) as [v2 Hv2]. rewrite Hv2. cbn [rbind of_option].
    eexists _, _, t. split; [reflexivity|]. cbn. cbn in F2. rewrite T2, T1. split; [reflexivity|].
    split; [destruct f; rewrite ?insert_length; lia|]. split; [lia|].
    intros k f' Hf'. destruct (K2 (S k) f' Hf') as (f'' & A & B). exists f''. split; [exact A|].
    cbn in B. rewrite B. replace (length (flags s) - 0 - S k) with (length (flags s) - 1 - k) by lia. reflexivity.
  - destruct (IHp (set_flags s (do_it :: flags s))) as (o & s2 & t & E2 & T2 & L2 & F2 & K2); [exact Hw|].
    rewrite E2. cbn [rbind snd fst]. cbn in L2, F2, T2, K2. destruct (flags s2) as [|f fl] eqn:Ef; [discriminate|]. cbn in F2.
    eexists _, _, (t ++ if f then [Act a] else []). split; [reflexivity|].
    split; [destruct f; cbn; rewrite T2, ?app_nil_r, ?app_assoc; reflexivity|].
    split; [destruct f; cbn; lia|]. split; [destruct f; cbn; lia|].
    intros k f' Hf'. destruct (K2 (S k) f' Hf') as (f'' & A & B). exists f''. split; [destruct f; exact A|].
    rewrite B. replace (length (flags s) - 0 - S k) with (length (flags s) - 1 - k) by lia.
    unfold dismisses. rewrite elem_of_app. destruct f; rewrite ?elem_of_list_singleton, ?elem_of_nil; intuition congruence.
  - set (s1 := if do_it then emit s (Act a) else s).
    assert (E1 : store s1 = store s /\ flags s1 = flags s /\ exists t0, trace s1 = trace s ++ t0 /\ forall n, ~ dismisses n t0).
    { unfold s1. destruct do_it; cbn; repeat split.
      - exists [Act a]. split; [reflexivity|]. intros n. unfold dismisses. rewrite elem_of_list_singleton. congruence.
      - exists []. rewrite app_nil_r. split; [reflexivity|]. intros n. unfold dismisses. rewrite elem_of_nil. tauto. }
    destruct E1 as (ES & EF & t0 & ET & EN).
    destruct (do_it && throws).
    + exists Thrown, s1, t0. split; [reflexivity|]. split; [exact ET|]. rewrite ES, EF. repeat split; auto; try lia.
      intros k f Hf. exists f. split; [assumption|]. specialize (EN (length (flags s) - 1 - k)). tauto.
    + destruct (IHp (set_flags s1 (do_it :: flags s1))) as (o & s2 & t & E2 & T2 & L2 & F2 & K2); [cbn; rewrite ES, EF; exact Hw|].
      rewrite E2. cbn [rbind snd fst]. cbn in L2, F2, T2, K2. rewrite ES in L2. rewrite EF in F2, K2. rewrite ET in T2.
      destruct (flags s2) as [|f fl] eqn:Ef; [discriminate|]. cbn in F2.
      eexists _, _, (t0 ++ t ++ if f then [Act b] else []). split; [reflexivity|].
      split; [destruct f; cbn; rewrite T2, ?app_nil_r, ?app_assoc; reflexivity|].
      split; [destruct f; cbn; lia|]. split; [destruct f; cbn; lia|].
      intros k f' Hf'. destruct (K2 (S k) f' Hf') as (f'' & A & B). exists f''. split; [destruct f; exact A|].
      rewrite B. replace (length (flags s) - 0 - S k) with (length (flags s) - 1 - k) by lia.
      specialize (EN (length (flags s) - 1 - k)).
      unfold dismisses in *. rewrite !elem_of_app. destruct f; rewrite ?elem_of_list_singleton, ?elem_of_nil; intuition congruence.
  - destruct (lookup_lt_is_Some_2 _ _ Hw) as [f0 Hf0]. rewrite Hf0. cbn [rbind of_option].
    eexists _, _, [Dismissed (length (flags s) - 1 - k)]. split; [reflexivity|]. cbn. rewrite insert_length. repeat split; auto; try lia.
    intros j f Hf. pose proof (lookup_lt_Some _ _ _ Hf) as Hj. unfold dismisses. setoid_rewrite elem_of_list_singleton. destruct (decide (j = k)) as [->|Hne].
    + exists false. rewrite list_lookup_insert by assumption. split; [reflexivity|]. split; [discriminate|]. intros [_ K]. exfalso. apply K. reflexivity.
    + exists f. rewrite list_lookup_insert_ne by congruence. split; [assumption|]. split; [|tauto].
      intros ->. split; [reflexivity|]. intros [= K]. apply Hne. lia.
Qed.

(** ** C48: scoped_set_value
    Whatever the body does - assign the variable, nest further guards, throw - the block ends with the
    same outcome as the body and the variable has its old value again, unless the guard was created
    with do_it = false or dismissed by the body; no other variable and no event is affected. *)
Theorem C48_set_value x e d body s old :
  wf (length (store s)) (length (flags s)) (SSetValue x e d body) -> store s !! x = Some old ->
  exists o sb s' t, exec (SSetValue x e d body) s = Ok (o, s') /\
    (exists s0, exec body s0 = Ok (o, sb) /\ flags s0 = d :: flags s /\ trace s0 = trace s) /\
    trace s' = trace s ++ t /\ trace sb = trace s' /\
    (d = true -> ~ dismisses (length (flags s)) t -> store s' = <[x := old]> (store sb)) /\
    (d = false \/ dismisses (length (flags s)) t -> store s' = store sb).
Proof using Type.
  intros Hw Ho. cbn [exec wf] in *. destruct Hw as (Hx & He & Hb). rewrite Ho. cbn [rbind of_option].
  match goal with |- context [rbind ?c _] =>
    match c with context [if d then _ else _] =>
      assert (exists s1, c = Ok s1 /\ length (store s1) = length (store s) /\ flags s1 = flags s /\ trace s1 = trace s) as (s1 & E1 & L1 & F1 & T1)
    end end.
  { destruct d.
    - destruct e as [z|y]; cbn.
      + eexists. split; [reflexivity|]. cbn. rewrite !insert_length. auto.
      + assert (Hy : y < length (<[x := leave old]> (store s))) by (rewrite insert_length; exact He).
        destruct (lookup_lt_is_Some_2 _ _ Hy) as [v Hv]. rewrite Hv. cbn.
        eexists. split; [reflexivity|]. cbn. rewrite !insert_length. auto.
    - destruct e as [z|y]; cbn.
      + eexists. split; [reflexivity|]. auto.
      + destruct (lookup_lt_is_Some_2 _ _ He) as [v Hv]. rewrite Hv. cbn. eexists. split; [reflexivity|]. auto. }
  rewrite E1. cbn [rbind]. set (s0 := set_flags s1 (d :: flags s1)).
  destruct (exec_ok body s0) as (o & s2 & t & E2 & T2 & L2 & F2 & K2).
  { cbn. rewrite L1, F1. exact Hb. }
  rewrite E2. cbn [rbind snd fst]. cbn in L2, F2, T2. rewrite F1 in F2.
  destruct (flags s2) as [|f fl] eqn:Ef; [discriminate|].
  assert (Hx2 : x < length (store s2)) by lia. destruct (lookup_lt_is_Some_2 _ _ Hx2) as [v2 Hv2]. rewrite Hv2. cbn [rbind of_option].
  destruct (K2 0 d eq_refl) as (f' & A & B). cbn in A. injection A as <-. cbn in B. rewrite F1, Nat.sub_0_r in B. rewrite Nat.sub_0_r in B.
  eexists _, s2, _, t. split; [reflexivity|]. cbn. rewrite T2, T1. split; [|split; [reflexivity|split; [reflexivity|]]].
  - exists s0. split; [exact E2|]. cbn. rewrite F1, T1. auto.
  - split; intros H.
    + intros Hd. destruct f; [reflexivity|]. exfalso. destruct B as [_ B]. specialize (B (conj H Hd)). discriminate.
    + destruct f; [|reflexivity]. exfalso. destruct B as [B _]. destruct (B eq_refl) as [B1 B2]. destruct H; congruence.
Qed.

(** scoped_guard and scoped_set_unset: the exit action runs exactly once, last, however the body ends,
    unless the guard was created with do_it = false or dismissed. *)
Theorem C48_guard a d body s : wf (length (store s)) (length (flags s)) (SGuard a d body) ->
  exists o s' t, exec (SGuard a d body) s = Ok (o, s') /\
    (exists sb, exec body (set_flags s (d :: flags s)) = Ok (o, sb) /\ trace sb = trace s ++ t /\ store sb = store s') /\
    (d = true -> ~ dismisses (length (flags s)) t -> trace s' = trace s ++ t ++ [Act a]) /\
    (d = false \/ dismisses (length (flags s)) t -> trace s' = trace s ++ t).
Proof using Type.
  intros Hw. cbn [exec wf] in *. destruct (exec_ok body (set_flags s (d :: flags s))) as (o & s2 & t & E2 & T2 & L2 & F2 & K2); [exact Hw|].
  rewrite E2. cbn [rbind snd fst]. cbn in T2, F2. destruct (flags s2) as [|f fl] eqn:Ef; [discriminate|].
  destruct (K2 0 d eq_refl) as (f' & A & B). cbn in A. injection A as <-. cbn in B. rewrite !Nat.sub_0_r in B.
  eexists _, _, t. split; [reflexivity|]. split; [exists s2; split; [reflexivity|]; split; [exact T2|destruct f; reflexivity]|].
  split; intros H.
  - intros Hd. destruct f; [cbn; rewrite T2, app_assoc; reflexivity|]. exfalso. destruct B as [_ B]. specialize (B (conj H Hd)). discriminate.
  - destruct f; [|exact T2]. exfalso. destruct B as [B _]. destruct (B eq_refl) as [B1 B2]. destruct H; congruence.
Qed.
Theorem C48_set_unset a throws b d body s : wf (length (store s)) (length (flags s)) (SSetUnset a throws b d body) ->
  exists o s' t, exec (SSetUnset a throws b d body) s = Ok (o, s') /\
    (d = true -> throws = true -> o = Thrown /\ trace s' = trace s ++ [Act a] /\ store s' = store s) /\
    (d = true -> throws = false -> trace s' = trace s ++ [Act a] ++ t ++ (if decide (dismisses (length (flags s)) t) then [] else [Act b])) /\
    (d = false -> trace s' = trace s ++ t).
Proof using Type.
  intros Hw. cbn [exec wf] in *. destruct d, throws; cbn [andb].
  - eexists Thrown, _, []. split; [reflexivity|]. split; [auto|]. split; discriminate.
  - destruct (exec_ok body (set_flags (emit s (Act a)) (true :: flags s))) as (o & s2 & t & E2 & T2 & L2 & F2 & K2); [exact Hw|].
    cbn [flags emit]. rewrite E2. cbn [rbind snd fst]. cbn in T2, F2. destruct (flags s2) as [|f fl] eqn:Ef; [discriminate|].
    destruct (K2 0 true eq_refl) as (f' & A & B). cbn in A. injection A as <-. cbn in B. rewrite !Nat.sub_0_r in B.
    eexists _, _, t. split; [reflexivity|]. split; [discriminate|]. split; [|discriminate]. intros _ _.
    destruct (decide (dismisses (length (flags s)) t)) as [Hd|Hd].
    + destruct f; [tauto|]. cbn. rewrite T2, app_nil_r, <- app_assoc. reflexivity.
    + destruct f; [|destruct B as [_ B]; specialize (B (conj eq_refl Hd)); discriminate]. cbn. rewrite T2, <- !app_assoc. reflexivity.
  - destruct (exec_ok body (set_flags s (false :: flags s))) as (o & s2 & t & E2 & T2 & L2 & F2 & K2); [exact Hw|].
    rewrite E2. cbn [rbind snd fst]. cbn in T2, F2. destruct (flags s2) as [|f fl] eqn:Ef; [discriminate|].
    destruct (K2 0 false eq_refl) as (f' & A & B). cbn in A. injection A as <-.
    eexists _, _, t. split; [reflexivity|]. split; [discriminate|]. split; [discriminate|]. intros _. destruct f; [intuition discriminate|exact T2].
  - destruct (exec_ok body (set_flags s (false :: flags s))) as (o & s2 & t & E2 & T2 & L2 & F2 & K2); [exact Hw|].
    rewrite E2. cbn [rbind snd fst]. cbn in T2, F2. destruct (flags s2) as [|f fl] eqn:Ef; [discriminate|].
    destruct (K2 0 false eq_refl) as (f' & A & B). cbn in A. injection A as <-.
    eexists _, _, t. split; [reflexivity|]. split; [discriminate|]. split; [discriminate|]. intros _. destruct f; [intuition discriminate|exact T2].
Qed.

(** Guards nested in one another run their exit actions in the reverse order of their construction. *)
Fixpoint nest (l : list nat) (body : stmt) : stmt := match l with [] => body | a :: l' => SGuard a true (nest l' body) end.
Fixpoint no_dismiss (p : stmt) : Prop :=
  match p with
  | SSeq p1 p2 => no_dismiss p1 /\ no_dismiss p2
  | SCatch p | SSetValue _ _ _ p | SGuard _ _ p | SSetUnset _ _ _ _ p => no_dismiss p
  | SDismiss _ => False
  | _ => True
  end.
Lemma no_dismiss_flags p : no_dismiss p -> forall s o s', exec p s = Ok (o, s') -> flags s' = flags s.
Proof using Type.
  induction p; cbn [no_dismiss exec]; intros Hn s o s' H; try (injection H as _ <-; reflexivity).
  - destruct Hn as [H1 H2]. destruct (exec p1 s) as [[[] s1]| | | |] eqn:E1; cbn in H; try discriminate.
    + rewrite (IHp2 H2 _ _ _ H). eapply IHp1; eassumption.
    + injection H as _ <-. eapply IHp1; eassumption.
  - destruct (eval _ _); cbn in H; try discriminate. destruct (of_option _); cbn in H; try discriminate. injection H as _ <-. reflexivity.
  - destruct (exec p s) as [[o1 s1]| | | |] eqn:E1; cbn in H; try discriminate. injection H as _ <-. eapply IHp; eassumption.
  - destruct (of_option (store s !! x)) as [old| | | |]; cbn [rbind] in H; try discriminate.
    match type of H with rbind ?c _ = _ => assert (forall s1, c = Ok s1 -> flags s1 = flags s) as HF; [|destruct c as [s1| | | |] eqn:E1; cbn [rbind] in H; try discriminate] end.
    { intros s1. destruct do_it; destruct (eval _ _); cbn; intros [= <-]; reflexivity. }
    specialize (HF s1 eq_refl). destruct (exec p _) as [[o1 s2]| | | |] eqn:E2; cbn [rbind snd fst] in H; try discriminate.
    apply (IHp Hn) in E2. cbn in E2. rewrite E2 in H. destruct (of_option (store s2 !! x)); cbn in H; try discriminate.
    injection H as _ <-. exact HF.
  - destruct (exec p _) as [[o1 s2]| | | |] eqn:E2; cbn [rbind snd fst] in H; try discriminate.
    apply (IHp Hn) in E2. cbn in E2. rewrite E2 in H. injection H as _ <-. destruct do_it; reflexivity.
  - destruct (do_it && throws); [injection H as _ <-; destruct do_it; reflexivity|].
    destruct (exec p _) as [[o1 s2]| | | |] eqn:E2; cbn [rbind snd fst] in H; try discriminate.
    apply (IHp Hn) in E2. cbn in E2. rewrite E2 in H. injection H as _ <-. destruct do_it; reflexivity.
  - destruct Hn.
Qed.
Theorem C48_lifo l body : no_dismiss body -> forall s o s', exec (nest l body) s = Ok (o, s') ->
  exists fl t sb, exec body (set_flags s fl) = Ok (o, sb) /\ trace sb = t /\ trace s' = t ++ map Act (rev l) /\ store s' = store sb.
Proof using Type.
  intros Hn. induction l as [|a l IH]; intros s o s' H; cbn [nest exec] in H.
  - exists (flags s), (trace s'), s'. cbn. rewrite app_nil_r. destruct s. auto.
  - destruct (exec (nest l body) (set_flags s (true :: flags s))) as [[o1 s2]| | | |] eqn:E; cbn [rbind snd fst] in H; try discriminate.
    assert (Hf : flags s2 = true :: flags s).
    { eapply no_dismiss_flags in E; [exact E|]. clear -Hn. induction l; cbn; auto. }
    rewrite Hf in H. injection H as <- <-. destruct (IH _ _ _ E) as (fl & t & sb & A & B & C & D).
    exists fl, t, sb. cbn in *. split; [exact A|]. split; [exact B|]. rewrite C, D. split; [|reflexivity].
    rewrite <- app_assoc, map_app. reflexivity.
Qed.

(** change and replace (135-154): for a constant argument, replace returns the old value and change
    reports whether the value changed. *)
Definition change (m : list value) (x : nat) (e : expr) : res (bool * list value) :=
  let* old := of_option (m !! x) in
  let* v := eval m e in
  if decide (old = v) then Ok (false, m) else Ok (true, <[x := v]> m).
Definition replace_ (m : list value) (x : nat) (e : expr) : res (value * list value) :=
  let* old := of_option (m !! x) in
  let m1 := <[x := leave old]> m in
  let* v := eval m1 e in
  Ok (old, <[x := v]> m1).
End Trivial.

Print Assumptions C48_set_value.
Print Assumptions C48_guard.
Print Assumptions C48_set_unset.
Print Assumptions C48_lifo.

Theorem C48_replace_change trivial m x z old : m !! x = Some old ->
  replace_ trivial m x (EConst z) = Ok (old, <[x := V z]> m) /\
  change m x (EConst z) = Ok (negb (bool_decide (old = V z)), <[x := V z]> m).
Proof.
  intros Hx. unfold replace_, change. rewrite Hx. cbn [of_option rbind eval]. rewrite list_insert_insert. split; [reflexivity|].
  destruct (decide (old = V z)) as [->|Hne].
  - rewrite bool_decide_true by reflexivity. rewrite list_insert_id by assumption. reflexivity.
  - rewrite bool_decide_false by assumption. reflexivity.
Qed.
Print Assumptions C48_replace_change.

(** An argument that is the variable itself is read after the variable has been moved from: the
    body of [scoped_set_value g(x, x)] sees the moved-from value, and [replace(x, x)] loses the
    value of x.  (For types such as std::string; not for ints.) *)
Theorem C48_alias_refuted : exists m : list value, m !! 0 = Some (V 5) /\
  replace_ false m 0 (EVar 0) = Ok (V 5, [Moved]) /\
  exec false (SSetValue 0 (EVar 0) true (SSeq (SDismiss 0) SSkip)) {| store := m; flags := []; trace := [] |} =
    Ok (Normal, {| store := [Moved]; flags := []; trace := [Dismissed 0] |}).
Proof. exists [V 5]. vm_compute. auto. Qed.
Print Assumptions C48_alias_refuted.

(** Example: nested guards, one dismissed, with an exception that unwinds through all of them. *)
Definition ex_prog : stmt :=
  SCatch (SSetValue 0 (EConst 7) true
    (SGuard 1 true
      (SGuard 2 true
        (SSetUnset 3 false 4 true
          (SSeq (SDismiss 1) (SSeq (SAssign 0 (EConst 9)) SThrow)))))).
Example ex_run : exec false ex_prog {| store := [V 5]; flags := []; trace := [] |} =
  Ok (Normal, {| store := [V 5]; flags := []; trace := [Act 3; Dismissed 2; Act 4; Act 1] |}).
Proof. vm_compute. reflexivity. Qed.
Example ex_wf : wf 1 0 ex_prog.
Proof. cbn. lia. Qed.

(** ** Timestamps (utils.hpp:165-231): model.  All timestamps of the program and the clock. *)
Record tstate := { clock : N; stamps : list N }.
Inductive top :=
| TNew                   (* timestamp t; 167 *)
| TCopy (i : nat)        (* timestamp t(stamp_i) *)
| TFrom (n : N)          (* timestamp t(n); 169-170 *)
| TTouch (i : nat)       (* 172 *)
| TTouchFrom (i j : nat) (* touch(other) 173 *)
| TReset (i : nat)       (* 175 *)
| TOr (i j : nat)        (* i |= j; 186-190 *)
| TSet (i : nat) (changed : bool). (* set_with_ts of a value that differs or not: 196-203 *)
Definition texec (s : tstate) (o : top) : res tstate :=
  let tick := wadd 64 (clock s) 1 in
  match o with
  | TNew => Ok {| clock := tick; stamps := stamps s ++ [tick] |}
  | TCopy i => let* v := of_option (stamps s !! i) in Ok {| clock := clock s; stamps := stamps s ++ [v] |}
  | TFrom n => Ok {| clock := clock s; stamps := stamps s ++ [n] |}
  | TTouch i => let* _ := of_option (stamps s !! i) in Ok {| clock := tick; stamps := <[i := tick]> (stamps s) |}
  | TTouchFrom i j => let* _ := of_option (stamps s !! i) in let* v := of_option (stamps s !! j) in
                      Ok {| clock := clock s; stamps := <[i := v]> (stamps s) |}
  | TReset i => let* _ := of_option (stamps s !! i) in Ok {| clock := clock s; stamps := <[i := 0%N]> (stamps s) |}
  | TOr i j => let* a := of_option (stamps s !! i) in let* b := of_option (stamps s !! j) in
               Ok {| clock := clock s; stamps := <[i := if N.ltb b a then a else b]> (stamps s) |}
  | TSet i c => let* _ := of_option (stamps s !! i) in
                if c then Ok {| clock := tick; stamps := <[i := tick]> (stamps s) |} else Ok s
  end.
(** Specification: histories without 2^64 ticks in which explicit stamps are not from the future. *)
Inductive treach : tstate -> Prop :=
| t_init : treach {| clock := 0; stamps := [] |}
| t_step s o s' : treach s -> (clock s < 2 ^ 64 - 1)%N -> match o with TFrom n => (n <= clock s)%N | _ => True end ->
    texec s o = Ok s' -> treach s'.
Lemma treach_bound s : treach s -> Forall (fun t => t <= clock s)%N (stamps s) /\ (clock s < 2 ^ 64)%N.
Proof.
  induction 1 as [|s o s' Hr [IH Hc] Hb Hn Hx]; [split; [constructor|reflexivity]|].
  assert (Et : wadd 64 (clock s) 1 = (clock s + 1)%N) by (unfold wadd; apply N.mod_small; lia).
  assert (Hup : Forall (fun t => t <= clock s + 1)%N (stamps s)) by (eapply Forall_impl; [exact IH|]; cbn; lia).
  destruct o; cbn [texec] in Hx; rewrite ?Et in Hx;
    repeat (match type of Hx with context [of_option (stamps s !! ?j)] =>
      let E := fresh "E" in destruct (stamps s !! j) eqn:E; cbn [of_option rbind] in Hx; [|discriminate];
      apply (Forall_lookup_1 _ _ _ _ IH) in E; cbn in E end);
    try (injection Hx as <-; cbn [clock stamps]).
  - split; [|lia]. apply Forall_app. split; [assumption|]. constructor; [lia|constructor].
  - split; [|lia]. apply Forall_app. split; [assumption|]. constructor; [lia|constructor].
  - split; [|lia]. apply Forall_app. split; [assumption|]. constructor; [lia|constructor].
  - split; [|lia]. apply Forall_insert; [assumption|lia].
  - split; [|lia]. apply Forall_insert; [assumption|lia].
  - split; [|lia]. apply Forall_insert; [assumption|lia].
  - split; [|lia]. apply Forall_insert; [assumption|]. destruct (N.ltb _ _); lia.
  - destruct changed; injection Hx as <-; cbn [clock stamps]; split; try lia; [|assumption]. apply Forall_insert; [assumption|lia].
Qed.
(** A timestamp that is created, touched or set by a change becomes strictly newer than every other. *)
Theorem C48_newest s o s' i : treach s -> (clock s < 2 ^ 64 - 1)%N ->
  (o = TNew /\ i = length (stamps s) \/ o = TTouch i \/ o = TSet i true) -> texec s o = Ok s' ->
  exists v, stamps s' !! i = Some v /\ (0 < v)%N /\
    (forall j w, stamps s' !! j = Some w -> j <> i -> (w < v)%N) /\ (forall j w, stamps s !! j = Some w -> (w < v)%N).
Proof.
  intros Hr Hc Ho Hx. destruct (treach_bound s Hr) as [HB _].
  assert (Et : wadd 64 (clock s) 1 = (clock s + 1)%N) by (unfold wadd; apply N.mod_small; lia).
  exists (clock s + 1)%N.
  assert (Hold : forall j w, stamps s !! j = Some w -> (w < clock s + 1)%N).
  { intros j w Hj. apply (Forall_lookup_1 _ _ _ _ HB) in Hj. cbn in Hj. lia. }
  destruct Ho as [[-> ->]|[-> | ->]]; cbn [texec] in Hx; rewrite Et in Hx.
  - injection Hx as <-. cbn [stamps]. rewrite lookup_app_r, Nat.sub_diag by lia. repeat split; [lia| |exact Hold].
    intros j w Hj Hne. pose proof (lookup_lt_Some _ _ _ Hj) as Hl. rewrite app_length in Hl. cbn in Hl.
    rewrite lookup_app_l in Hj by lia. eauto.
  - destruct (stamps s !! i) eqn:E; cbn [of_option rbind] in Hx; [|discriminate]. injection Hx as <-. cbn [stamps].
    rewrite list_lookup_insert by (eapply lookup_lt_Some; eassumption). repeat split; [lia| |exact Hold].
    intros j w Hj Hne. rewrite list_lookup_insert_ne in Hj by congruence. eauto.
  - destruct (stamps s !! i) eqn:E; cbn [of_option rbind] in Hx; [|discriminate]. injection Hx as <-. cbn [stamps].
    rewrite list_lookup_insert by (eapply lookup_lt_Some; eassumption). repeat split; [lia| |exact Hold].
    intros j w Hj Hne. rewrite list_lookup_insert_ne in Hj by congruence. eauto.
Qed.
Print Assumptions C48_newest.
(** i |= j leaves i with the more recent of the two and touches no other timestamp. *)
Theorem C48_most_recent s i j a b s' : stamps s !! i = Some a -> stamps s !! j = Some b -> texec s (TOr i j) = Ok s' ->
  stamps s' !! i = Some (N.max a b) /\ clock s' = clock s /\ (forall k, k <> i -> stamps s' !! k = stamps s !! k).
Proof.
  intros Hi Hj Hx. cbn [texec] in Hx. rewrite Hi, Hj in Hx. cbn [of_option rbind] in Hx. injection Hx as <-. cbn [stamps clock].
  rewrite list_lookup_insert by (eapply lookup_lt_Some; eassumption).
  split; [destruct (N.ltb_spec b a); f_equal; lia|]. split; [reflexivity|]. intros k Hk. rewrite list_lookup_insert_ne by congruence. reflexivity.
Qed.
Print Assumptions C48_most_recent.
Example ex_stamps : exists s, treach s /\ stamps s = [3; 2; 3]%N.
Proof.
  exists {| clock := 3; stamps := [3; 2; 3]%N |}. split; [|reflexivity].
  apply (t_step {| clock := 3; stamps := [3; 2; 1]%N |} (TTouchFrom 2 0)); [|reflexivity|exact I|reflexivity].
  apply (t_step {| clock := 3; stamps := [3; 2]%N |} (TFrom 1)); [|reflexivity|cbn; lia|reflexivity].
  apply (t_step {| clock := 2; stamps := [1; 2]%N |} (TTouch 0)); [|reflexivity|exact I|reflexivity].
  apply (t_step {| clock := 1; stamps := [1]%N |} TNew); [|reflexivity|exact I|reflexivity].
  apply (t_step {| clock := 0; stamps := [] |} TNew); [|reflexivity|exact I|reflexivity]. constructor.
Qed.
