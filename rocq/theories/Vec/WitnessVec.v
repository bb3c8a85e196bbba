(** Concrete runs that meet the hypotheses of the theorems about gtl::vector, and the runs that refute the rest of C37, C39 and C40. *)
From stdpp Require Import gmap list infinite fin_map_dom.
From Coq Require Import NArith Lia ZifyBool ZifyNat ZifyN.
From Verif.Common Require Import Word.
From Verif.Vec Require Import Model Machine PropsVec.
Local Open Scope nat_scope.

Section Check.
Context {V : Type} (tr : traits) (moved : V -> V) (dflt : V).
Definition outside_dec r (a : @sarg V) : Decision (outside r a).
Proof. destruct a; cbn [outside]; apply _. Defined.
Definition movable_dec (a : @sarg V) mv : Decision (movable a mv).
Proof. unfold movable. destruct mv; [destruct a; [left; auto|right; intros H; exact (H eq_refl)]|left; discriminate]. Defined.
Definition call_ok_dec (o : @op V) L : Decision (call_ok tr o L).
Proof.
  destruct o; cbn [call_ok]; unfold within, grows, at_end; try (destruct (L !! r)); unfold fits64;
  repeat first [apply movable_dec | apply outside_dec | apply and_dec | apply or_dec]; try (right; tauto); apply _.
Defined.
Definition preb (o : @op V) (L : list (list V)) : bool :=
  match spec dflt o L with Some _ => (dst o <? length L) && (if call_ok_dec o L then true else false) | None => false end.
Lemma preb_ok o L : preb o L = true -> pre tr dflt o L.
Proof.
  unfold preb, pre. destruct (spec dflt o L); [|discriminate]. intros H. apply andb_prop in H as [H1 H2]. split; [eauto|]. split; [apply Nat.ltb_lt; assumption|]. destruct (call_ok_dec o L); [assumption|discriminate].
Qed.
(** runs a program, catching exceptions; [None] if some call is not allowed *)
Fixpoint go (os : list (@op V)) (w : @world V) : option (@world V) :=
  match os with
  | [] => Some w
  | o :: os' => if preb o (view w) then match exec tr moved dflt o w with Ret _ w' | Thr w' => go os' w' | Wrong => None end else None
  end.
Lemma go_reach os : forall w w', reach tr moved dflt w -> go os w = Some w' -> reach tr moved dflt w'.
Proof.
  induction os as [|o os IH]; intros w w' HR E; cbn [go] in E; [injection E as <-; assumption|]. destruct (preb o (view w)) eqn:Ep; [|discriminate]. apply preb_ok in Ep.
  destruct (exec tr moved dflt o w) as [x w1|w1|] eqn:E1; [| |discriminate]; (eapply IH; [|exact E]); [eapply reach_ret|eapply reach_thr]; eassumption.
Qed.
End Check.

(** an ordinary class with a noexcept move constructor; moved-from objects hold 0 *)
Definition cls : traits := mkT false true true true false 8 (2 ^ 40).
(** int *)
Definition int4 : traits := mkT true true true true true 4 (2 ^ 40).
(** a class that can only be moved, with a move constructor that may throw *)
Definition moveonly : traits := mkT false false false true false 8 (2 ^ 40).
Definition mv0 (_ : nat) : nat := 0.
Lemma cls_ok : machine64 cls. Proof. repeat split. Qed.
Lemma int4_ok : machine64 int4. Proof. repeat split. Qed.
Lemma moveonly_ok : machine64 moveonly. Proof. repeat split. Qed.

Definition prog1 : list (@op nat) :=
  [CtorList 0 [1; 2; 3]; Reserve 0 10; InsertCopy 0 1 (AEl 0 2); CtorCopy 1 0; InsertFill 1 2 3 (AEl 1 0); Erase 0 1 2; PushBack 1 (AEl 0 0) false; Swap 0 1; EraseIf 0 Nat.even; Resize 1 5].
Example C37_ex : exists w, reach cls mv0 7 w /\ view w = [[1; 3; 1; 1; 1; 3; 1]; [1; 2; 3; 7; 7]].
Proof. eexists. split; [eapply (go_reach cls mv0 7 prog1 (start 2 [])); [apply reach_start|vm_compute; reflexivity]|vm_compute; reflexivity]. Qed.
Definition prog2 : list (@op nat) := [CtorList 0 [1; 2; 3]; Reserve 0 10; InsertCopy 0 1 (AEl 0 2); CtorCopy 1 0; InsertFill 0 1 2 (AEl 0 0)].
(** the tenth operation that may throw does: a copy in CtorCopy *)
Definition orc2 : list bool := replicate 9 false ++ [true].
Example C38_ex : exists w, reach cls mv0 7 w /\ view w = [[1; 1; 1; 3; 2; 3]; []] /\ w_orc w = [] /\ size (w_heap w) = 1.
Proof. eexists. split; [eapply (go_reach cls mv0 7 prog2 (start 2 orc2)); [apply reach_start|vm_compute; reflexivity]|]. vm_compute. auto. Qed.
Example C38_throw_ex : exists w w', reach cls mv0 7 w /\ pre cls 7 (CtorCopy 1 0) (view w) /\ exec cls mv0 7 (CtorCopy 1 0) w = Thr w' /\ view w' = [[1; 3; 2; 3]; []].
Proof.
  eexists _, _. split; [eapply (go_reach cls mv0 7 (take 3 prog2) (start 2 orc2)); [apply reach_start|vm_compute; reflexivity]|].
  split; [apply (preb_ok cls mv0); vm_compute; reflexivity|]. split; vm_compute; reflexivity.
Qed.
Example C39_ex : exists w w', reach cls mv0 7 w /\ view w !! 0 = Some [1; 2; 3] /\ cap_of w 0 = 10 /\ exec cls mv0 7 (InsertCopy 0 1 (AEl 0 2)) w = Ret (OPos 1) w' /\ view w' !! 0 = Some [1; 3; 2; 3].
Proof. eexists _, _. split; [eapply (go_reach cls mv0 7 (take 2 prog1) (start 2 [])); [apply reach_start|vm_compute; reflexivity]|]. vm_compute. auto. Qed.
Example C40_ex : exists w k w', reach int4 mv0 7 w /\ pushes int4 mv0 7 0 (seq 0 40) w = Some (k, w') /\ k = 3 /\ cap_of w' 0 = 64.
Proof. eexists (start 1 []), _, _. split; [apply reach_start|]. vm_compute. auto. Qed.

(** Refuted (C37): shrink_to_fit is noexcept and swallows exceptions of element moves: elements of a move-only type with a throwing
    move constructor may be left moved-from though the call returns normally. *)
Theorem C37_shrink_to_fit_refuted : exists w y w', reach moveonly mv0 7 w /\ view w !! 0 = Some [1; 2; 3] /\ exec moveonly mv0 7 (Shrink 0) w = Ret y w' /\ view w' !! 0 = Some [0; 2; 3].
Proof.
  eexists _, _, _. split; [eapply (go_reach moveonly mv0 7 [Reserve 0 4; PushBack 0 (AVal 1) true; PushBack 0 (AVal 2) true; PushBack 0 (AVal 3) true] (start 1 [false; false; false; false; false; false; true])); [apply reach_start|vm_compute; reflexivity]|].
  vm_compute. auto.
Qed.
Print Assumptions C37_shrink_to_fit_refuted.
(** Refuted (C39): v = {1, 2, 3}, v.reserve(10), v.emplace(v.begin(), v[1]) inserts 1, not 2; for an ordinary class v.emplace(v.begin(), v[0]) reads a destroyed object. *)
Theorem C39_emplace_refuted : exists w y w', reach int4 mv0 7 w /\ view w !! 0 = Some [1; 2; 3] /\ exec int4 mv0 7 (Emplace 0 0 (AEl 0 1) false) w = Ret y w' /\ view w' !! 0 = Some [1; 1; 2; 3].
Proof. eexists _, _, _. split; [eapply (go_reach int4 mv0 7 (take 2 prog1) (start 2 [])); [apply reach_start|vm_compute; reflexivity]|]. vm_compute. auto. Qed.
Theorem C39_emplace_destroyed_refuted : exists w, reach cls mv0 7 w /\ view w !! 0 = Some [1; 2; 3] /\ exec cls mv0 7 (Emplace 0 0 (AEl 0 0) false) w = Wrong.
Proof. eexists. split; [eapply (go_reach cls mv0 7 (take 2 prog1) (start 2 [])); [apply reach_start|vm_compute; reflexivity]|]. vm_compute. auto. Qed.
Print Assumptions C39_emplace_refuted. Print Assumptions C39_emplace_destroyed_refuted.
(** Refuted (C40): reserve(2^62 + 1) of a vector<int> returns normally with capacity 1; vector<int>(2^62 + 1) writes past its block. *)
Definition huge : nat := N.to_nat (2 ^ 62 + 1).
Lemma huge_cap : good_cap int4 huge = 1.
Proof. unfold good_cap, huge. rewrite N2Nat.id. vm_compute. reflexivity. Qed.
Lemma huge_S : exists m, huge = S (S m).
Proof. exists (huge - 2). assert (2 < huge) by (unfold huge; lia). lia. Qed.
Theorem C40_reserve_refuted : exists y w', reach int4 mv0 7 (start 1 []) /\ exec int4 mv0 7 (Reserve 0 huge) (start 1 []) = Ret y w' /\ cap_of w' 0 = 1 /\ cap_of w' 0 < huge.
Proof.
  pose proof huge_cap as Hc. destruct huge_S as [m Hm]. revert Hc Hm. generalize huge. intros n Hc ->. eexists _, _. split; [apply reach_start|]. cbn [exec]. unfold none, reserve. rewrite Hc. split; [vm_compute; reflexivity|].
  split; [vm_compute; reflexivity|]. vm_compute. lia.
Qed.
Theorem C40_constructor_refuted : exec int4 mv0 7 (CtorN 0 huge) (start 1 []) = Wrong.
Proof.
  pose proof huge_cap as Hc. destruct huge_S as [m Hm]. revert Hc Hm. generalize huge. intros n Hc ->. cbn [exec]. unfold none, ctor_default, impl_init. rewrite Hc. vm_compute. reflexivity.
Qed.
Print Assumptions C40_reserve_refuted. Print Assumptions C40_constructor_refuted.
