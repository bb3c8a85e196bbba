(** Lock guards WriteLock, ReadLock, ReadWriteLock (include/gtl/phmap.hpp:194-460) used by one thread: what the
    guards say and what the thread really holds (C17). *)
From stdpp Require Import list.
From Coq Require Import Arith Lia.
From Verif.Common Require Import Res.
Local Open Scope nat_scope.
Local Open Scope res_scope.

(** ** Mutexes, as one thread sees them: the list of the acquisitions it has not released yet.
    Locking a mutex the thread already holds (in any mode) and unlocking one it does not hold are undefined
    behaviour ([thread.mutex.requirements]).  A blocking lock returns when the other threads have released
    the mutex; the outcome of a try is given by the environment. *)
Inductive mode := Excl | Shared.
Global Instance mode_eq_dec : EqDecision mode.
Proof. solve_decision. Defined.
Definition held := list (nat * mode).
Definition holds_any (h : held) (m : nat) : bool := existsb (fun x => fst x =? m) h.
Definition m_lock (h : held) (m : nat) (d : mode) : res held :=
  if holds_any h m then UB else Ok ((m, d) :: h).
Definition m_try (h : held) (m : nat) (d : mode) (free : bool) : res (held * bool) :=
  if holds_any h m then UB else Ok (if free then ((m, d) :: h, true) else (h, false)).
Fixpoint remove1 (x : nat * mode) (h : held) : option held :=
  match h with
  | [] => None
  | y :: h' => if decide (x = y) then Some h' else match remove1 x h' with Some r => Some (y :: r) | None => None end
  end.
Definition m_unlock (h : held) (m : nat) (d : mode) : res held := of_option (remove1 (m, d) h).

(** ** Guards.  [g_locked_shared] is only used by ReadWriteLock (458-460). *)
Inductive kind := KWrite | KRead | KReadWrite.
Global Instance kind_eq_dec : EqDecision kind.
Proof. solve_decision. Defined.
Record lguard := mkGuard { g_kind : kind; g_m : option nat; g_locked : bool; g_locked_shared : bool }.
(* the mode in which locked_ means held: ReadLock calls lock_shared *)
Definition lock_mode (k : kind) : mode := match k with KRead => Shared | _ => Excl end.

(* m_->...: dereferencing a null pointer is UB *)
Definition g_mutex (g : lguard) : res nat := of_option (g_m g).

Section Guards.
(* default constructors (199-201, 273-276, 348-351) *)
Definition g_default (k : kind) : lguard := mkGuard k None false false.
(* explicit WriteLock(mutex_type&) (203-207), ReadLock (278-282); ReadWriteLock locks shared (353-358) *)
Definition g_ctor (k : kind) (h : held) (m : nat) : res (held * lguard) :=
  match k with
  | KReadWrite => let* h' := m_lock h m Shared in Ok (h', mkGuard k (Some m) false true)
  | _ => let* h' := m_lock h m (lock_mode k) in Ok (h', mkGuard k (Some m) true false)
  end.
(* adopt (209-211, 284-286): the caller already holds the mutex; ReadWriteLock has no such constructor *)
Definition g_adopt (k : kind) (m : nat) : res lguard :=
  match k with KReadWrite => UB | _ => Ok (mkGuard k (Some m) true false) end.
(* defer (213-215, 288-290, 360-363) *)
Definition g_defer (k : kind) (m : nat) : lguard := mkGuard k (Some m) false false.
(* try_to_lock (217-221, 292-296): the result of try_lock is dropped; ReadWriteLock has no such constructor *)
Definition g_try_ctor (k : kind) (h : held) (m : nat) (free : bool) : res (held * lguard) :=
  match k with
  | KReadWrite => UB
  | _ => let* (h', _) := m_try h m (lock_mode k) free in Ok (h', mkGuard k (Some m) false false)
  end.
(* destructors (236-239, 311-314, 381-386) *)
Definition g_dtor (h : held) (g : lguard) : res held :=
  if g_locked_shared g then let* m := g_mutex g in m_unlock h m Shared
  else if g_locked g then let* m := g_mutex g in m_unlock h m (lock_mode (g_kind g))
  else Ok h.
(* lock (241-246, 316-321, 403-409); the assert of ReadWriteLock is a precondition *)
Definition g_lock (h : held) (g : lguard) : res (held * lguard) :=
  if g_locked_shared g then UB
  else if g_locked g then Ok (h, g)
  else
    let* m := g_mutex g in
    let* h' := m_lock h m (lock_mode (g_kind g)) in
    Ok (h', mkGuard (g_kind g) (g_m g) true (g_locked_shared g)).
(* unlock (248-253, 323-328, 411-416) *)
Definition g_unlock (h : held) (g : lguard) : res (held * lguard) :=
  if g_locked g then
    let* m := g_mutex g in
    let* h' := m_unlock h m (lock_mode (g_kind g)) in
    Ok (h', mkGuard (g_kind g) (g_m g) false (g_locked_shared g))
  else Ok (h, g).
(* try_lock (255-260, 330-335); ReadWriteLock has none *)
Definition g_try_lock (h : held) (g : lguard) (free : bool) : res (held * lguard * bool) :=
  match g_kind g with
  | KReadWrite => UB
  | _ =>
      if g_locked g then Ok (h, g, true)
      else
        let* m := g_mutex g in
        let* (h', b) := m_try h m (lock_mode (g_kind g)) free in
        Ok (h', mkGuard (g_kind g) (g_m g) b (g_locked_shared g), b)
  end.
(* ReadWriteLock::lock_shared (388-394), unlock_shared (396-401) *)
Definition g_lock_shared (h : held) (g : lguard) : res (held * lguard) :=
  match g_kind g with
  | KReadWrite =>
      if g_locked g then UB
      else if g_locked_shared g then Ok (h, g)
      else
        let* m := g_mutex g in
        let* h' := m_lock h m Shared in
        Ok (h', mkGuard (g_kind g) (g_m g) (g_locked g) true)
  | _ => UB
  end.
Definition g_unlock_shared (h : held) (g : lguard) : res (held * lguard) :=
  match g_kind g with
  | KReadWrite =>
      if g_locked_shared g then
        let* m := g_mutex g in
        let* h' := m_unlock h m Shared in
        Ok (h', mkGuard (g_kind g) (g_m g) (g_locked g) false)
      else Ok (h, g)
  | _ => UB
  end.
(* switch_to_unique (266, 341, 437-442) *)
Definition g_switch (h : held) (g : lguard) : res (held * lguard * bool) :=
  match g_kind g with
  | KReadWrite =>
      if g_locked_shared g then
        let* (h1, g1) := g_unlock_shared h g in
        let* (h2, g2) := g_lock h1 g1 in
        Ok (h2, g2, true)
      else UB (* assert(locked_shared_) *)
  | _ => Ok (h, g, false)
  end.
(* move constructors (223-228, 298-303, 365-372): (the new guard, what is left of the source) *)
Definition g_move (o : lguard) : lguard * lguard := (o, mkGuard (g_kind o) None false false).
(* observers (262, 337, 418-419), mutex() (264, 339, 435) *)
Definition owns_lock (g : lguard) : bool := g_locked g.
Definition owns_shared_lock (g : lguard) : bool := g_locked_shared g.
End Guards.

(** ** Programs over guard variables.  [raw]: acquisitions the thread made by itself, outside guards. *)
Inductive gop :=
| GDefault (i : nat) (k : kind)
| GCtor (i : nat) (k : kind) (m : nat)
| GDefer (i : nat) (k : kind) (m : nat)
| GAdopt (i : nat) (k : kind) (m : nat)
| GTryCtor (i : nat) (k : kind) (m : nat) (free : bool)
| GMoveCtor (i j : nat)          (* construct i from std::move(j) *)
| GMoveAssign (i j : nat)        (* i = std::move(j) *)
| GSwap (i j : nat)
| GDestroy (i : nat)
| GLock (i : nat)
| GUnlock (i : nat)
| GTryLock (i : nat) (free : bool)
| GLockShared (i : nat)
| GUnlockShared (i : nat)
| GSwitch (i : nat)
| GRawLock (m : nat) (d : mode)
| GRawUnlock (m : nat) (d : mode).
Record gstate := mkGs { gs_held : held; gs_raw : held; gs_guards : list (option lguard) }.

(** a variable must be dead to be constructed and alive to be used; anything else is UB *)
Definition get (s : gstate) (i : nat) : res lguard :=
  match gs_guards s !! i with Some (Some g) => Ok g | _ => UB end.
Definition dead (s : gstate) (i : nat) : res unit :=
  match gs_guards s !! i with Some None => Ok tt | _ => UB end.
Definition put (s : gstate) (h : held) (i : nat) (g : option lguard) : gstate :=
  mkGs h (gs_raw s) (<[i := g]> (gs_guards s)).

Definition gexec (s : gstate) (o : gop) : res gstate :=
  let h := gs_held s in
  match o with
  | GDefault i k => let* _ := dead s i in Ok (put s h i (Some (g_default k)))
  | GCtor i k m => let* _ := dead s i in let* (h', g) := g_ctor k h m in Ok (put s h' i (Some g))
  | GDefer i k m => let* _ := dead s i in Ok (put s h i (Some (g_defer k m)))
  | GAdopt i k m =>
      let* _ := dead s i in
      let* g := g_adopt k m in
      let* raw' := m_unlock (gs_raw s) m (lock_mode k) in   (* the thread hands its acquisition over *)
      Ok (mkGs h raw' (<[i := Some g]> (gs_guards s)))
  | GTryCtor i k m free => let* _ := dead s i in let* (h', g) := g_try_ctor k h m free in Ok (put s h' i (Some g))
  | GMoveCtor i j =>
      let* _ := dead s i in
      let* o := get s j in
      let '(g, rest) := g_move o in
      Ok (mkGs h (gs_raw s) (<[i := Some g]> (<[j := Some rest]> (gs_guards s))))
  | GMoveAssign i j =>
      (* temp(std::move(other)); swap(temp); ~temp (230-234, 305-309, 374-378) *)
      let* a := get s i in
      let* o := get s j in
      if decide (g_kind a = g_kind o) then
        let '(temp, rest) := g_move o in
        let gs1 := <[j := Some rest]> (gs_guards s) in
        match gs1 !! i with
        | Some (Some cur) => let* h' := g_dtor h cur in Ok (mkGs h' (gs_raw s) (<[i := Some temp]> gs1))
        | _ => UB
        end
      else UB
  | GSwap i j =>
      let* a := get s i in
      let* b := get s j in
      if decide (g_kind a = g_kind b) then Ok (mkGs h (gs_raw s) (<[i := Some b]> (<[j := Some a]> (gs_guards s)))) else UB
  | GDestroy i => let* g := get s i in let* h' := g_dtor h g in Ok (put s h' i None)
  | GLock i => let* g := get s i in let* (h', g') := g_lock h g in Ok (put s h' i (Some g'))
  | GUnlock i => let* g := get s i in let* (h', g') := g_unlock h g in Ok (put s h' i (Some g'))
  | GTryLock i free => let* g := get s i in let* (h', g', _) := g_try_lock h g free in Ok (put s h' i (Some g'))
  | GLockShared i => let* g := get s i in let* (h', g') := g_lock_shared h g in Ok (put s h' i (Some g'))
  | GUnlockShared i => let* g := get s i in let* (h', g') := g_unlock_shared h g in Ok (put s h' i (Some g'))
  | GSwitch i => let* g := get s i in let* (h', g', _) := g_switch h g in Ok (put s h' i (Some g'))
  | GRawLock m d => let* h' := m_lock h m d in Ok (mkGs h' ((m, d) :: gs_raw s) (gs_guards s))
  | GRawUnlock m d => let* raw' := m_unlock (gs_raw s) m d in let* h' := m_unlock h m d in Ok (mkGs h' raw' (gs_guards s))
  end.
Fixpoint grun (s : gstate) (os : list gop) : res gstate :=
  match os with [] => Ok s | o :: os' => let* s1 := gexec s o in grun s1 os' end.
Definition gstart (n : nat) : gstate := mkGs [] [] (replicate n None).

(** ** Specification: what the observers of a guard say it owns *)
Definition reported (g : lguard) : held :=
  match g_m g with
  | Some m => (if owns_shared_lock g then [(m, Shared)] else []) ++ (if owns_lock g then [(m, lock_mode (g_kind g))] else [])
  | None => if owns_shared_lock g || owns_lock g then [(0, Excl); (0, Excl)] else []   (* would be nonsense; excluded below *)
  end.
Definition all_reported (gs : list (option lguard)) : held := flat_map (fun o => match o with Some g => reported g | None => [] end) gs.
Definition no_try_ctor (o : gop) : Prop := match o with GTryCtor _ _ _ _ => False | _ => True end.

(** ** Proofs *)
Definition wf_guard (g : lguard) : Prop :=
  (g_m g = None -> g_locked g = false /\ g_locked_shared g = false) /\
  (g_locked_shared g = true -> g_kind g = KReadWrite /\ g_locked g = false).
Definition wf (s : gstate) : Prop :=
  (forall i g, gs_guards s !! i = Some (Some g) -> wf_guard g) /\
  gs_held s ≡ₚ all_reported (gs_guards s) ++ gs_raw s.

Lemma remove1_perm x h h' : remove1 x h = Some h' -> h ≡ₚ x :: h'.
Proof.
  revert h'. induction h as [|y h IH]; intros h' H; cbn in H; [discriminate|]. destruct (decide (x = y)) as [->|].
  - injection H as <-. reflexivity.
  - destruct (remove1 x h) as [r|]; [|discriminate]. injection H as <-. rewrite (IH r eq_refl). constructor.
Qed.
Lemma remove1_in x h : In x h -> exists h', remove1 x h = Some h'.
Proof.
  induction h as [|y h IH]; intros []; cbn.
  - subst. destruct (decide (x = x)); [eauto|contradiction].
  - destruct (decide (x = y)); [eauto|]. destruct (IH H) as [h' ->]. eauto.
Qed.
Lemma m_unlock_ok h m d rest : h ≡ₚ (m, d) :: rest -> exists h', m_unlock h m d = Ok h' /\ h' ≡ₚ rest.
Proof.
  intros Hp. destruct (remove1_in (m, d) h) as [h' Hr]; [rewrite Hp; left; reflexivity|].
  exists h'. unfold m_unlock. rewrite Hr. split; [reflexivity|]. apply remove1_perm in Hr. rewrite Hp in Hr.
  apply Permutation_cons_inv in Hr. symmetry. assumption.
Qed.
Lemma m_unlock_perm h m d h' : m_unlock h m d = Ok h' -> h ≡ₚ (m, d) :: h'.
Proof. unfold m_unlock. destruct (remove1 (m, d) h) eqn:Hr; cbn; [intros [= <-]; apply remove1_perm; assumption|discriminate]. Qed.
Lemma m_lock_perm h m d h' : m_lock h m d = Ok h' -> h' = (m, d) :: h.
Proof. unfold m_lock. destruct (holds_any h m); [discriminate|congruence]. Qed.

(** replacing one guard *)
Lemma reported_focus (gs : list (option lguard)) i o : gs !! i = Some o ->
  exists rest, all_reported gs ≡ₚ (match o with Some g => reported g | None => [] end) ++ rest /\
    forall o', all_reported (<[i := o']> gs) ≡ₚ (match o' with Some g => reported g | None => [] end) ++ rest.
Proof.
  revert i. induction gs as [|a gs IH]; intros [|i] Hi; cbn in Hi; try discriminate.
  - injection Hi as ->. exists (all_reported gs). split; reflexivity.
  - destruct (IH i Hi) as (rest & H1 & H2). exists ((match a with Some g => reported g | None => [] end) ++ rest).
    split; [|intros o'; change (<[S i := o']> (a :: gs)) with (a :: <[i := o']> gs)].
    + change (all_reported (a :: gs)) with ((match a with Some g => reported g | None => [] end) ++ all_reported gs).
      rewrite H1, !app_assoc. f_equiv. apply Permutation_app_comm.
    + change (all_reported (a :: <[i := o']> gs)) with ((match a with Some g => reported g | None => [] end) ++ all_reported (<[i := o']> gs)).
      rewrite H2, !app_assoc. f_equiv. apply Permutation_app_comm.
Qed.
Lemma get_ok s i g : get s i = Ok g -> gs_guards s !! i = Some (Some g).
Proof. unfold get. destruct (gs_guards s !! i) as [[g0|]|]; congruence. Qed.
Lemma dead_ok s i : dead s i = Ok tt -> gs_guards s !! i = Some None.
Proof. unfold dead. destruct (gs_guards s !! i) as [[g0|]|]; congruence. Qed.

(** the effect of a guard operation: it moves [held] exactly as the report of the guard moves *)
Lemma wf_put s i o h' g' : wf s -> gs_guards s !! i = Some o ->
  (match g' with Some g => wf_guard g | None => True end) ->
  (forall rest, gs_held s ≡ₚ (match o with Some g => reported g | None => [] end) ++ rest ->
     h' ≡ₚ (match g' with Some g => reported g | None => [] end) ++ rest) ->
  wf (put s h' i g').
Proof.
  intros [Hw Hp] Hi Hg Hmove. pose proof (lookup_lt_Some _ _ _ Hi) as Hlt. split; cbn [put gs_guards gs_held gs_raw].
  - intros j g Hj. destruct (Nat.eq_dec i j) as [<-|Hne].
    + rewrite list_lookup_insert in Hj by assumption. injection Hj as ->. assumption.
    + rewrite list_lookup_insert_ne in Hj by assumption. eauto.
  - destruct (reported_focus _ _ _ Hi) as (rest & H1 & H2). rewrite H2. rewrite <- app_assoc. apply Hmove. rewrite Hp, H1, <- app_assoc. reflexivity.
Qed.

Ltac rb := cbn [rbind g_mutex of_option].
Lemma wf_none g m : wf_guard g -> g_m g = Some m -> g_locked g = false -> g_locked_shared g = false -> reported g = [].
Proof. intros _ Hm H1 H2. unfold reported, owns_lock, owns_shared_lock. rewrite Hm, H1, H2. reflexivity. Qed.

Lemma g_lock_ok h g h' g' : wf_guard g -> g_lock h g = Ok (h', g') -> wf_guard g' /\ g_kind g' = g_kind g /\
  forall rest, h ≡ₚ reported g ++ rest -> h' ≡ₚ reported g' ++ rest.
Proof.
  intros W H. pose proof W as [W1 W2]. unfold g_lock in H. destruct (g_locked_shared g) eqn:Hs; [discriminate|].
  destruct (g_locked g) eqn:Hl; [injection H as <- <-; auto|].
  unfold g_mutex in H. destruct (g_m g) as [m|] eqn:Hm; rb; cbn in H; [|discriminate].
  destruct (m_lock h m (lock_mode (g_kind g))) as [h1| | | |] eqn:Hk; cbn in H; try discriminate. injection H as <- <-.
  apply m_lock_perm in Hk. subst h1. split; [split; cbn; [discriminate|congruence]|]. split; [reflexivity|].
  intros rest Hr. unfold reported, owns_lock, owns_shared_lock in *. cbn. rewrite Hm, Hs, Hl in Hr. cbn in Hr. rewrite Hr. reflexivity.
Qed.
Lemma g_unlock_ok h g : wf_guard g -> forall rest, h ≡ₚ reported g ++ rest ->
  exists h' g', g_unlock h g = Ok (h', g') /\ wf_guard g' /\ g_kind g' = g_kind g /\ h' ≡ₚ reported g' ++ rest.
Proof.
  intros W rest Hr. pose proof W as [W1 W2]. unfold g_unlock. destruct (g_locked g) eqn:Hl.
  - assert (Hs : g_locked_shared g = false) by (destruct (g_locked_shared g); [destruct (W2 eq_refl); congruence|reflexivity]).
    unfold g_mutex. destruct (g_m g) as [m|] eqn:Hm; [|destruct (W1 eq_refl); congruence]. rb.
    unfold reported, owns_lock, owns_shared_lock in Hr. rewrite Hm, Hs, Hl in Hr. cbn in Hr.
    destruct (m_unlock_ok h m _ rest Hr) as (h' & Hu & Hp). rewrite Hu. rb. eexists _, _. split; [reflexivity|].
    split; [split; cbn; [discriminate|congruence]|]. split; [reflexivity|]. unfold reported. cbn. rewrite Hs. assumption.
  - eexists _, _. split; [reflexivity|]. auto.
Qed.
Lemma g_unlock_shared_ok h g : wf_guard g -> g_kind g = KReadWrite -> forall rest, h ≡ₚ reported g ++ rest ->
  exists h' g', g_unlock_shared h g = Ok (h', g') /\ wf_guard g' /\ g_kind g' = KReadWrite /\ h' ≡ₚ reported g' ++ rest /\ g_m g' = g_m g /\
    (g_locked_shared g = true -> g_locked g' = false) /\ g_locked_shared g' = false.
Proof.
  intros W Hk rest Hr. pose proof W as [W1 W2]. unfold g_unlock_shared. rewrite Hk. destruct (g_locked_shared g) eqn:Hs.
  - destruct (W2 eq_refl) as [_ Hl]. unfold g_mutex. destruct (g_m g) as [m|] eqn:Hm; [|destruct (W1 eq_refl); congruence]. rb.
    unfold reported, owns_lock, owns_shared_lock in Hr. rewrite Hm, Hs, Hl in Hr. cbn in Hr.
    destruct (m_unlock_ok h m _ rest Hr) as (h' & Hu & Hp). rewrite Hu. rb. eexists _, _. split; [reflexivity|].
    split; [split; cbn; [discriminate|discriminate]|]. split; [reflexivity|]. split; [unfold reported; cbn; rewrite Hl; assumption|]. cbn. auto.
  - eexists _, _. split; [reflexivity|]. split; [assumption|]. split; [assumption|]. split; [assumption|]. split; [reflexivity|]. split; [discriminate|assumption].
Qed.
Lemma g_dtor_ok h g : wf_guard g -> forall rest, h ≡ₚ reported g ++ rest -> exists h', g_dtor h g = Ok h' /\ h' ≡ₚ rest.
Proof.
  intros [W1 W2] rest Hr. unfold g_dtor, reported, owns_lock, owns_shared_lock, g_mutex in *.
  destruct (g_locked_shared g) eqn:Hs.
  - destruct (W2 eq_refl) as [_ Hl]. destruct (g_m g) as [m|] eqn:Hm; [|destruct (W1 eq_refl); congruence]. rb. rewrite Hl in Hr. cbn in Hr.
    apply m_unlock_ok. assumption.
  - destruct (g_locked g) eqn:Hl; destruct (g_m g) as [m|] eqn:Hm; cbn in Hr; rb.
    + apply m_unlock_ok. assumption.
    + destruct (W1 eq_refl). congruence.
    + eauto.
    + eauto.
Qed.

Lemma wf_step s o s' : wf s -> no_try_ctor o -> gexec s o = Ok s' -> wf s'.
Proof.
  intros Hw Ho H. pose proof Hw as [Hg Hp].
  destruct o as [i k|i k m|i k m|i k m|i k m fr|i j|i j|i j|i|i|i|i fr|i|i|i|m d|m d]; cbn [gexec no_try_ctor] in *; try contradiction.
  - destruct (dead s i) as [[]| | | |] eqn:Hd; cbn in H; try discriminate. injection H as <-. apply dead_ok in Hd.
    apply (wf_put s i None); [assumption|assumption|split; cbn; [auto|discriminate]|auto].
  - destruct (dead s i) as [[]| | | |] eqn:Hd; cbn in H; try discriminate. apply dead_ok in Hd.
    destruct (g_ctor k (gs_held s) m) as [[h' g]| | | |] eqn:Hc; cbn in H; try discriminate. injection H as <-.
    apply (wf_put s i None); [assumption|assumption| |].
    + unfold g_ctor in Hc. destruct k; (destruct (m_lock _ _ _); cbn in Hc; try discriminate; injection Hc as <- <-; split; cbn; congruence || auto).
    + intros rest Hr. cbn in Hr. unfold g_ctor in Hc. destruct k; (destruct (m_lock _ _ _) eqn:Hk; cbn in Hc; try discriminate; injection Hc as <- <-; apply m_lock_perm in Hk; subst; cbn; rewrite Hr; reflexivity).
  - destruct (dead s i) as [[]| | | |] eqn:Hd; cbn in H; try discriminate. injection H as <-. apply dead_ok in Hd.
    apply (wf_put s i None); [assumption|assumption|split; cbn; [auto|discriminate]|auto].
  - destruct (dead s i) as [[]| | | |] eqn:Hd; cbn in H; try discriminate. apply dead_ok in Hd.
    unfold g_adopt in H. assert (Hk : k <> KReadWrite) by (destruct k; cbn in H; congruence || discriminate).
    assert (H' : (let* raw' := m_unlock (gs_raw s) m (lock_mode k) in Ok (mkGs (gs_held s) raw' (<[i := Some (mkGuard k (Some m) true false)]> (gs_guards s)))) = Ok s')
      by (destruct k; [exact H|exact H|congruence]).
    clear H. destruct (m_unlock (gs_raw s) m (lock_mode k)) as [raw'| | | |] eqn:Hu; cbn in H'; try discriminate. injection H' as <-.
    apply m_unlock_perm in Hu. split; cbn.
    + intros j g Hj. destruct (Nat.eq_dec i j) as [<-|Hne].
      * rewrite list_lookup_insert in Hj by (apply lookup_lt_Some in Hd; assumption). injection Hj as <-. split; cbn; discriminate.
      * rewrite list_lookup_insert_ne in Hj by assumption. eauto.
    + destruct (reported_focus _ _ _ Hd) as (rest & H1 & H2). rewrite H2, Hp, H1, Hu. cbn.
      change ((m, lock_mode k) :: rest ++ raw') with (((m, lock_mode k) :: rest) ++ raw').
      rewrite <- Permutation_middle. reflexivity.
  - destruct (dead s i) as [[]| | | |] eqn:Hd; cbn in H; try discriminate. apply dead_ok in Hd.
    destruct (get s j) as [o| | | |] eqn:Hj; cbn in H; try discriminate. apply get_ok in Hj. injection H as <-.
    assert (Hij : i <> j) by congruence. pose proof (lookup_lt_Some _ _ _ Hd) as Hli. pose proof (lookup_lt_Some _ _ _ Hj) as Hlj.
    split; cbn.
    + intros x g Hx. destruct (Nat.eq_dec i x) as [<-|Hne]; [rewrite list_lookup_insert in Hx by (rewrite insert_length; assumption); injection Hx as <-; eauto|].
      rewrite list_lookup_insert_ne in Hx by assumption. destruct (Nat.eq_dec j x) as [<-|Hne2].
      * rewrite list_lookup_insert in Hx by assumption. injection Hx as <-. split; cbn; [auto|discriminate].
      * rewrite list_lookup_insert_ne in Hx by assumption. eauto.
    + destruct (reported_focus _ _ _ Hj) as (rest & H1 & H2).
      destruct (reported_focus (<[j := Some (mkGuard (g_kind o) None false false)]> (gs_guards s)) i None) as (rest2 & H3 & H4); [rewrite list_lookup_insert_ne by congruence; assumption|].
      rewrite H4, Hp, H1. rewrite H2 in H3. cbn in H3. rewrite H3. reflexivity.
  - destruct (get s i) as [a| | | |] eqn:Hi; cbn in H; try discriminate. apply get_ok in Hi.
    destruct (get s j) as [o| | | |] eqn:Hj; cbn in H; try discriminate. apply get_ok in Hj.
    destruct (decide (g_kind a = g_kind o)); [|discriminate].
    pose proof (lookup_lt_Some _ _ _ Hi) as Hli. pose proof (lookup_lt_Some _ _ _ Hj) as Hlj.
    set (gs1 := <[j := Some (mkGuard (g_kind o) None false false)]> (gs_guards s)) in *.
    destruct (gs1 !! i) as [[cur|]|] eqn:Hc; try discriminate.
    destruct (g_dtor (gs_held s) cur) as [h'| | | |] eqn:Hd; cbn in H; try discriminate. injection H as <-.
    assert (Hwc : wf_guard cur).
    { unfold gs1 in Hc. destruct (Nat.eq_dec j i) as [->|Hne].
      - rewrite list_lookup_insert in Hc by assumption. injection Hc as <-. split; cbn; [auto|discriminate].
      - rewrite list_lookup_insert_ne in Hc by assumption. eauto. }
    split; cbn.
    + intros x g Hx. destruct (Nat.eq_dec i x) as [<-|Hne]; [rewrite list_lookup_insert in Hx by (unfold gs1; rewrite insert_length; assumption); injection Hx as <-; eauto|].
      rewrite list_lookup_insert_ne in Hx by assumption. unfold gs1 in Hx. destruct (Nat.eq_dec j x) as [<-|Hne2].
      * rewrite list_lookup_insert in Hx by assumption. injection Hx as <-. split; cbn; [auto|discriminate].
      * rewrite list_lookup_insert_ne in Hx by assumption. eauto.
    + destruct (reported_focus _ _ _ Hj) as (rest & H1 & H2). destruct (reported_focus gs1 i (Some cur) Hc) as (rest2 & H3 & H4).
      rewrite H4. unfold gs1 in H3. rewrite H2 in H3. cbn in H3.
      destruct (g_dtor_ok (gs_held s) cur Hwc (reported o ++ rest2 ++ gs_raw s)) as (h2 & Hd2 & Hp2).
      { rewrite Hp, H1, <- app_assoc, H3, <- app_assoc, !app_assoc. f_equiv. f_equiv. apply Permutation_app_comm. }
      rewrite Hd2 in Hd. injection Hd as <-. rewrite Hp2, app_assoc. reflexivity.
  - destruct (get s i) as [a| | | |] eqn:Hi; cbn in H; try discriminate. apply get_ok in Hi.
    destruct (get s j) as [b| | | |] eqn:Hj; cbn in H; try discriminate. apply get_ok in Hj.
    destruct (decide (g_kind a = g_kind b)); [|discriminate]. injection H as <-.
    pose proof (lookup_lt_Some _ _ _ Hi) as Hli. pose proof (lookup_lt_Some _ _ _ Hj) as Hlj. split; cbn.
    + intros x g Hx. destruct (Nat.eq_dec i x) as [<-|Hne]; [rewrite list_lookup_insert in Hx by (rewrite insert_length; assumption); injection Hx as <-; eauto|].
      rewrite list_lookup_insert_ne in Hx by assumption. destruct (Nat.eq_dec j x) as [<-|Hne2].
      * rewrite list_lookup_insert in Hx by assumption. injection Hx as <-. eauto.
      * rewrite list_lookup_insert_ne in Hx by assumption. eauto.
    + destruct (reported_focus _ _ _ Hj) as (rest & H1 & H2). destruct (Nat.eq_dec i j) as [->|Hne].
      * rewrite list_insert_insert, H2, Hp, H1. reflexivity.
      * destruct (reported_focus (<[j := Some a]> (gs_guards s)) i (Some a)) as (rest2 & H3 & H4); [rewrite list_lookup_insert_ne by congruence; assumption|].
        rewrite H4, Hp, H1. rewrite H2 in H3. apply Permutation_app_inv_l in H3. rewrite H3. reflexivity.
  - destruct (get s i) as [g| | | |] eqn:Hi; cbn in H; try discriminate. apply get_ok in Hi.
    destruct (g_dtor (gs_held s) g) as [h'| | | |] eqn:Hd; cbn in H; try discriminate. injection H as <-.
    apply (wf_put s i (Some g)); [assumption|assumption|exact I|]. intros rest Hr.
    destruct (g_dtor_ok _ g (Hg _ _ Hi) rest Hr) as (h2 & Hd2 & Hp2). rewrite Hd in Hd2. injection Hd2 as <-. exact Hp2.
  - destruct (get s i) as [g| | | |] eqn:Hi; cbn in H; try discriminate. apply get_ok in Hi.
    destruct (g_lock (gs_held s) g) as [[h' g']| | | |] eqn:Hd; cbn in H; try discriminate. injection H as <-.
    destruct (g_lock_ok _ _ _ _ (Hg _ _ Hi) Hd) as (W & _ & Hm). apply (wf_put s i (Some g)); assumption.
  - destruct (get s i) as [g| | | |] eqn:Hi; cbn in H; try discriminate. apply get_ok in Hi.
    destruct (g_unlock (gs_held s) g) as [[h' g']| | | |] eqn:Hd; cbn in H; try discriminate. injection H as <-.
    destruct (reported_focus _ _ _ Hi) as (rest & H1 & _).
    destruct (g_unlock_ok (gs_held s) g (Hg _ _ Hi) (rest ++ gs_raw s)) as (h2 & g2 & Hd2 & W & _); [rewrite Hp, H1, app_assoc; reflexivity|].
    rewrite Hd in Hd2. injection Hd2 as <- <-. apply (wf_put s i (Some g)); [assumption|assumption|assumption|].
    intros r Hr. destruct (g_unlock_ok (gs_held s) g (Hg _ _ Hi) r Hr) as (h2 & g2 & Hd2 & _ & _ & Hp2).
    rewrite Hd in Hd2. injection Hd2 as <- <-. assumption.
  - destruct (get s i) as [g| | | |] eqn:Hi; cbn in H; try discriminate. apply get_ok in Hi. pose proof (Hg _ _ Hi) as [W1 W2].
    unfold g_try_lock in H. destruct (g_kind g) eqn:Hk; [| |discriminate].
    all: destruct (g_locked g) eqn:Hl; cbn in H; [injection H as <-; apply (wf_put s i (Some g)); [assumption|assumption|eauto|auto]|];
      assert (Hs : g_locked_shared g = false) by (destruct (g_locked_shared g); [destruct (W2 eq_refl); congruence|reflexivity]);
      unfold g_mutex, m_try in H; destruct (g_m g) as [m|] eqn:Hm; cbn in H; [|discriminate];
      destruct (holds_any (gs_held s) m); cbn in H; [discriminate|]; destruct fr; cbn in H; injection H as <-;
      (apply (wf_put s i (Some g)); [assumption|assumption|split; cbn; congruence|];
       intros rest Hr; cbn; unfold reported, owns_lock, owns_shared_lock in *; rewrite Hm, Hs, Hl in Hr; cbn; rewrite Hs; cbn in Hr |- *; rewrite Hr; reflexivity).
  - destruct (get s i) as [g| | | |] eqn:Hi; cbn in H; try discriminate. apply get_ok in Hi. pose proof (Hg _ _ Hi) as [W1 W2].
    unfold g_lock_shared in H. destruct (g_kind g) eqn:Hk; cbn in H; try discriminate.
    destruct (g_locked g) eqn:Hl; cbn in H; [discriminate|]. destruct (g_locked_shared g) eqn:Hs; cbn in H.
    + injection H as <-. apply (wf_put s i (Some g)); [assumption|assumption|eauto|auto].
    + unfold g_mutex in H. destruct (g_m g) as [m|] eqn:Hm; cbn in H; [|discriminate].
      destruct (m_lock (gs_held s) m Shared) as [h'| | | |] eqn:Hml; cbn in H; try discriminate. injection H as <-. apply m_lock_perm in Hml. subst h'.
      apply (wf_put s i (Some g)); [assumption|assumption|split; cbn; [congruence|auto]|].
      intros rest Hr. cbn. unfold reported, owns_lock, owns_shared_lock in *. rewrite Hm, Hs, Hl in Hr. cbn in Hr |- *. rewrite Hr. reflexivity.
  - destruct (get s i) as [g| | | |] eqn:Hi; cbn in H; try discriminate. apply get_ok in Hi.
    destruct (g_unlock_shared (gs_held s) g) as [[h' g']| | | |] eqn:Hd; cbn in H; try discriminate. injection H as <-.
    assert (Hk : g_kind g = KReadWrite) by (unfold g_unlock_shared in Hd; destruct (g_kind g); congruence).
    destruct (reported_focus _ _ _ Hi) as (rest & H1 & _).
    destruct (g_unlock_shared_ok (gs_held s) g (Hg _ _ Hi) Hk (rest ++ gs_raw s)) as (h2 & g2 & Hd2 & W & _); [rewrite Hp, H1, app_assoc; reflexivity|].
    rewrite Hd in Hd2. injection Hd2 as <- <-. apply (wf_put s i (Some g)); [assumption|assumption|assumption|].
    intros r Hr. destruct (g_unlock_shared_ok (gs_held s) g (Hg _ _ Hi) Hk r Hr) as (h2 & g2 & Hd2 & _ & _ & Hp2 & _).
    rewrite Hd in Hd2. injection Hd2 as <- <-. assumption.
  - destruct (get s i) as [g| | | |] eqn:Hi; cbn in H; try discriminate. apply get_ok in Hi.
    destruct (g_switch (gs_held s) g) as [[[h' g'] b]| | | |] eqn:Hd; cbn in H; try discriminate. injection H as <-.
    unfold g_switch in Hd. destruct (g_kind g) eqn:Hk; try (injection Hd as <- <- _; apply (wf_put s i (Some g)); [assumption|assumption|eauto|auto]).
    destruct (g_locked_shared g) eqn:Hs; [|discriminate].
    destruct (reported_focus _ _ _ Hi) as (rest0 & H10 & _).
    destruct (g_unlock_shared_ok (gs_held s) g (Hg _ _ Hi) Hk (rest0 ++ gs_raw s)) as (h1 & g1 & Hu & W & Hk1 & _); [rewrite Hp, H10, app_assoc; reflexivity|].
    rewrite Hu in Hd. cbn [rbind] in Hd. destruct (g_lock h1 g1) as [[h2 g2]| | | |] eqn:Hl2; cbn in Hd; try discriminate. injection Hd as <- <- _.
    destruct (g_lock_ok _ _ _ _ W Hl2) as (W' & _ & Hm). apply (wf_put s i (Some g)); [assumption|assumption|assumption|].
    intros r Hr. apply Hm. destruct (g_unlock_shared_ok (gs_held s) g (Hg _ _ Hi) Hk r Hr) as (h3 & g3 & Hu3 & _ & _ & Hp3 & _).
    rewrite Hu in Hu3. injection Hu3 as <- <-. assumption.
  - destruct (m_lock (gs_held s) m d) as [h'| | | |] eqn:Hm; cbn in H; try discriminate. injection H as <-. apply m_lock_perm in Hm. subst h'.
    split; cbn; [assumption|]. rewrite Hp, Permutation_middle. reflexivity.
  - destruct (m_unlock (gs_raw s) m d) as [raw'| | | |] eqn:Hm; cbn in H; try discriminate.
    destruct (m_unlock (gs_held s) m d) as [h'| | | |] eqn:Hh; cbn in H; try discriminate. injection H as <-.
    apply m_unlock_perm in Hm, Hh. split; cbn; [assumption|]. rewrite Hp, Hm in Hh. rewrite <- Permutation_middle in Hh.
    apply Permutation_cons_inv in Hh. symmetry. assumption.
Qed.
Lemma wf_start n : wf (gstart n).
Proof.
  split; cbn.
  - intros i g H. apply lookup_replicate in H. destruct H. discriminate.
  - rewrite app_nil_r. induction n; cbn; [reflexivity|assumption].
Qed.
Lemma wf_run os : forall s s', wf s -> Forall no_try_ctor os -> grun s os = Ok s' -> wf s'.
Proof.
  induction os as [|o os IH]; intros s s' Hw Ho H; cbn in H; [congruence|]. inversion Ho; subst.
  destruct (gexec s o) as [s1| | | |] eqn:He; cbn in H; try discriminate. eapply IH; [|eassumption|exact H]. eapply wf_step; eassumption.
Qed.
