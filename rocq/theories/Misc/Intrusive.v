(** C42: intrusive_ptr and intrusive_ref_counter (intrusive.hpp), single-threaded. *)
From stdpp Require Import list list_numbers.
From Coq Require Import NArith Lia.
From Coq Require Import ZifyBool ZifyNat ZifyN.
From Verif.Common Require Import Res Word.
Open Scope nat_scope.
Open Scope res_scope.

(** ** Model
    Objects derive from intrusive_ref_counter and may themselves contain intrusive_ptr members
    (fields), so that deleting an object can delete others.  Objects are numbered in the order of
    their creation; a deleted object is [None], and any access to it is UB.  A pointer variable
    holds [None] (null) or the number of an object; a variable whose destructor has run is
    represented by null.  Raw pointers obtained by detach() own a reference until they are adopted
    or released: they are kept in [raws]. *)
Notation ptr := (option nat) (only parsing).
Record obj := { o_cnt : N; o_fields : list ptr }.
Record st := { heap : list (option obj); vars : list ptr; raws : list nat; log : list nat (* deletions *) }.
(** an intrusive_ptr object: a variable or a member of an object *)
Inductive lval := LVar (r : nat) | LField (o f : nat).
Global Instance lval_eq_dec : EqDecision lval.
Proof. solve_decision. Defined.

Definition set_heap (s : st) h : st := {| heap := h; vars := vars s; raws := raws s; log := log s |}.
Definition set_vars (s : st) v : st := {| heap := heap s; vars := v; raws := raws s; log := log s |}.
Definition set_raws (s : st) r : st := {| heap := heap s; vars := vars s; raws := r; log := log s |}.

(** access to an object: UB when it does not exist (any more) *)
Definition live (s : st) (o : nat) : res obj :=
  match heap s !! o with Some (Some ob) => Ok ob | _ => UB end.
(** the px member of an intrusive_ptr *)
Definition get (s : st) (l : lval) : res ptr :=
  match l with
  | LVar r => of_option (vars s !! r)
  | LField o f => let* ob := live s o in of_option (o_fields ob !! f)
  end.
Definition put (s : st) (l : lval) (p : ptr) : res st :=
  match l with
  | LVar r => let* _ := of_option (vars s !! r) in Ok (set_vars s (<[r := p]> (vars s)))
  | LField o f =>
    let* ob := live s o in let* _ := of_option (o_fields ob !! f) in
    Ok (set_heap s (<[o := Some {| o_cnt := o_cnt ob; o_fields := <[f := p]> (o_fields ob) |}]> (heap s)))
  end.
(* intrusive.hpp:375 intrusive_ptr_add_ref, 318 increment (unsigned int, 32 bits); the guard
   [if (px)] of its callers is included *)
Definition add_ref (s : st) (p : ptr) : res st :=
  match p with
  | None => Ok s
  | Some o =>
    let* ob := live s o in
    Ok (set_heap s (<[o := Some {| o_cnt := wadd 32 (o_cnt ob) 1; o_fields := o_fields ob |}]> (heap s)))
  end.
(* intrusive.hpp:377-380 intrusive_ptr_release, 320 decrement, with the guard [if (px)] of
   ~intrusive_ptr (91-94).  When the count reaches 0 the object is deleted: its members are destroyed
   in reverse order, each of which may delete other objects, before anything else happens: [todo]
   is the list of the pointers still to be released.  (The model forbids any access to the object
   from the moment its destructor starts.) *)
Fixpoint release (fuel : nat) (s : st) (todo : list ptr) : res st :=
  match fuel with
  | O => Loop
  | S f =>
    match todo with
    | [] => Ok s
    | None :: todo => release f s todo
    | Some o :: todo =>
      let* ob := live s o in
      let c := wsub 32 (o_cnt ob) 1 in
      if N.eqb c 0 then
        release f {| heap := <[o := None]> (heap s); vars := vars s; raws := raws s; log := log s ++ [o] |}
                (rev (o_fields ob) ++ todo)
      else release f (set_heap s (<[o := Some {| o_cnt := c; o_fields := o_fields ob |}]> (heap s))) todo
    end
  end.
Definition nfields (h : list (option obj)) : nat :=
  sum_list (map (fun x => match x with Some ob => length (o_fields ob) | None => 0 end) h).
(** ~intrusive_ptr of a pointer to p *)
Definition rel (s : st) (p : ptr) : res st := release (3 + nfields (heap s)) s [p].

Inductive op :=
| ONew (nf : nat)          (* intrusive_ptr p(new T), T with nf null members: 61-65, 360 *)
| ONull                    (* intrusive_ptr p; 58-59 *)
| OCopy (l : lval)         (* intrusive_ptr p(l); also p(l.get()) and static/const_pointer_cast: 61-65, 67-72, 80-84, 236-244 *)
| OMove (l : lval)         (* intrusive_ptr p(std::move(l)): 74-78, 86-89; casts of rvalues: 251-259 *)
| ODynMove (l : lval) (ok : bool) (* dynamic_pointer_cast of an rvalue, which succeeds or not: 261-271 *)
| ODestroy (r : nat)       (* ~intrusive_ptr: 91-94 *)
| OAssign (l1 l2 : lval)   (* l1 = l2: 96-107 *)
| OMoveAssign (l1 l2 : lval) (* l1 = std::move(l2): 109-113 *)
| OAssignRaw (l1 l2 : lval)  (* l1 = l2.get(): 121-125 *)
| OReset (l : lval)        (* l.reset(): 127 *)
| OResetRaw (l1 l2 : lval) (* l1.reset(l2.get()): 129 *)
| OSwap (l1 l2 : lval)     (* l1.swap(l2): 153-157, 222-225 *)
| ODetach (l : lval)       (* raw = l.detach(): 135-139 *)
| OAdopt (k : nat)         (* intrusive_ptr p(raw_k, false): 61-65 *)
| OResetAdopt (l : lval) (k : nat) (* l.reset(raw_k, false): 131 *)
| OUseCount (l : lval)     (* l->use_count(): 370 *)
| OGet (l : lval).         (* l.get(), operator bool, comparisons: 133, 151, 165-218 *)
Inductive ans := AUnit | ACount (n : N) | APtr (p : ptr).

(** the copy-and-swap idiom: [this_type(tmp).swap( *this)] followed by the destruction of tmp *)
Definition swap_in (s : st) (l : lval) (p : ptr) : res (st * ans) :=
  let* old := get s l in
  let* s := put s l p in
  let* s := rel s old in
  Ok (s, AUnit).
Definition push (s : st) (p : ptr) : st := set_vars s (vars s ++ [p]).

Definition exec (s : st) (x : op) : res (st * ans) :=
  match x with
  | ONew nf =>
    let o := length (heap s) in
    let s := set_heap s (heap s ++ [Some {| o_cnt := 0; o_fields := repeat None nf |}]) in
    let* s := add_ref s (Some o) in
    Ok (push s (Some o), APtr (Some o))
  | ONull => Ok (push s None, AUnit)
  | OCopy l => let* p := get s l in let* s := add_ref s p in Ok (push s p, APtr p)
  | OMove l => let* p := get s l in let* s := put s l None in Ok (push s p, APtr p)
  | ODynMove l ok =>
    let* p := get s l in
    match p with
    | Some _ => if ok then let* s := put s l None in Ok (push s p, APtr p) else Ok (push s None, APtr None)
    | None => Ok (push s None, APtr None)
    end
  | ODestroy r => let* p := get s (LVar r) in let* s := put s (LVar r) None in let* s := rel s p in Ok (s, AUnit)
  | OAssign l1 l2 =>
    if decide (l1 = l2) then Ok (s, AUnit)
    else let* p := get s l2 in let* s := add_ref s p in swap_in s l1 p
  | OMoveAssign l1 l2 =>
    if decide (l1 = l2) then Ok (s, AUnit)
    else let* p := get s l2 in let* s := put s l2 None in swap_in s l1 p
  | OAssignRaw l1 l2 =>
    let* p := get s l2 in
    let* q := get s l1 in
    if decide (p = q) then Ok (s, AUnit) else let* s := add_ref s p in swap_in s l1 p
  | OReset l => swap_in s l None
  | OResetRaw l1 l2 => let* p := get s l2 in let* s := add_ref s p in swap_in s l1 p
  | OSwap l1 l2 =>
    let* p1 := get s l1 in let* p2 := get s l2 in
    let* s := put s l1 p2 in let* s := put s l2 p1 in Ok (s, AUnit)
  | ODetach l =>
    let* p := get s l in let* s := put s l None in
    Ok (match p with Some o => set_raws s (raws s ++ [o]) | None => s end, APtr p)
  | OAdopt k =>
    let* o := of_option (raws s !! k) in
    Ok (push (set_raws s (delete k (raws s))) (Some o), APtr (Some o))
  | OResetAdopt l k =>
    let* o := of_option (raws s !! k) in
    swap_in (set_raws s (delete k (raws s))) l (Some o)
  | OUseCount l =>
    let* p := get s l in
    match p with
    | Some o => let* ob := live s o in Ok (s, ACount (o_cnt ob))
    | None => UB
    end
  | OGet l => let* p := get s l in Ok (s, APtr p)
  end.

(** ** Specification: owners *)
Fixpoint occ (x : nat) (l : list ptr) : nat :=
  match l with
  | [] => 0
  | p :: l' => (if decide (p = Some x) then 1 else 0) + occ x l'
  end.
(** the intrusive_ptr members of the objects that exist *)
Fixpoint members (h : list (option obj)) : list ptr :=
  match h with
  | [] => []
  | Some ob :: h' => o_fields ob ++ members h'
  | None :: h' => members h'
  end.
(** every place that owns a reference *)
Definition places (s : st) : list ptr := vars s ++ members (heap s) ++ map Some (raws s).
Definition owners (s : st) (o : nat) : nat := occ o (places s).

(** What a program must respect: it only uses intrusive_ptr objects that exist, raw pointers it
    owns, and there are fewer than 2^32 - 2 owning places (the counter has 32 bits). *)
Definition valid (s : st) (l : lval) : Prop := exists p, get s l = Ok p.
Definition few (s : st) : Prop := (N.of_nat (length (places s)) + 2 < 2 ^ 32)%N.
Definition pre (s : st) (x : op) : Prop :=
  few s /\
  match x with
  | ONew nf => (N.of_nat (length (places s) + nf) + 2 < 2 ^ 32)%N
  | ONull => True
  | OCopy l | OMove l | ODynMove l _ | OReset l | ODetach l | OGet l => valid s l
  | OUseCount l => exists o, get s l = Ok (Some o)
  | ODestroy r => valid s (LVar r)
  | OAssign l1 l2 | OMoveAssign l1 l2 | OAssignRaw l1 l2 | OResetRaw l1 l2 | OSwap l1 l2 => valid s l1 /\ valid s l2
  | OAdopt k => k < length (raws s)
  | OResetAdopt l k => valid s l /\ k < length (raws s)
  end.
Definition init : st := {| heap := []; vars := []; raws := []; log := [] |}.
Inductive reach : st -> Prop :=
| reach_init : reach init
| reach_step s x s' a : reach s -> pre s x -> exec s x = Ok (s', a) -> reach s'.

(** ** Counting lemmas *)
Lemma occ_app x l1 l2 : occ x (l1 ++ l2) = occ x l1 + occ x l2.
Proof. induction l1; cbn; [reflexivity|]. rewrite IHl1. lia. Qed.
Lemma occ_rev x l : occ x (rev l) = occ x l.
Proof. induction l; cbn; [reflexivity|]. rewrite occ_app, IHl. cbn. lia. Qed.
Lemma occ_le x l : occ x l <= length l.
Proof. induction l; cbn; [lia|]. destruct (decide _); lia. Qed.
Definition one (p : ptr) (x : nat) : nat := if decide (p = Some x) then 1 else 0.
Lemma occ_insert x l i p q : l !! i = Some q -> occ x (<[i := p]> l) + one q x = occ x l + one p x.
Proof.
  revert i. induction l as [|a l IH]; intros [|i] H; cbn in *; try discriminate.
  - injection H as ->. unfold one. repeat destruct (decide _); lia.
  - specialize (IH i H). rewrite <- !Nat.add_assoc. f_equal. exact IH.
Qed.
Lemma occ_delete x (l : list nat) k o : l !! k = Some o -> occ x (map Some (delete k l)) + one (Some o) x = occ x (map Some l).
Proof.
  revert k. induction l as [|a l IH]; intros [|k] H; cbn in *; try discriminate.
  - injection H as ->. unfold one. repeat destruct (decide _); lia.
  - specialize (IH k H). rewrite <- !Nat.add_assoc. f_equal. exact IH.
Qed.
Lemma members_app h1 h2 : members (h1 ++ h2) = members h1 ++ members h2.
Proof. induction h1 as [|[ob|] h1 IH]; cbn; rewrite ?IH, ?app_assoc; reflexivity. Qed.
Lemma occ_members_set x h o ob ob' : h !! o = Some (Some ob) ->
  occ x (members (<[o := Some ob']> h)) + occ x (o_fields ob) = occ x (members h) + occ x (o_fields ob').
Proof.
  revert o. induction h as [|a h IH]; intros [|o] H; cbn in H; try discriminate.
  - injection H as ->. change (<[0 := Some ob']> (Some ob :: h)) with (Some ob' :: h). cbn [members]. rewrite !occ_app. lia.
  - specialize (IH o H). change (<[S o := Some ob']> (a :: h)) with (a :: <[o := Some ob']> h). cbn [members]. destruct a; rewrite ?occ_app; lia.
Qed.
Lemma occ_members_kill x h o ob : h !! o = Some (Some ob) ->
  occ x (members (<[o := None]> h)) + occ x (o_fields ob) = occ x (members h).
Proof.
  revert o. induction h as [|a h IH]; intros [|o] H; cbn in H; try discriminate.
  - injection H as ->. change (<[0 := None]> (Some ob :: h)) with (None :: h). cbn [members]. rewrite !occ_app. lia.
  - specialize (IH o H). change (<[S o := None]> (a :: h)) with (a :: <[o := None]> h). cbn [members]. destruct a; rewrite ?occ_app; lia.
Qed.
Lemma len_members_set h o ob ob' : h !! o = Some (Some ob) -> length (o_fields ob') = length (o_fields ob) ->
  length (members (<[o := Some ob']> h)) = length (members h).
Proof.
  revert o. induction h as [|a h IH]; intros [|o] H L; cbn in H; try discriminate.
  - injection H as ->. change (<[0 := Some ob']> (Some ob :: h)) with (Some ob' :: h). cbn [members]. rewrite !app_length. lia.
  - specialize (IH o H L). change (<[S o := Some ob']> (a :: h)) with (a :: <[o := Some ob']> h). cbn [members]. destruct a; rewrite ?app_length; lia.
Qed.
Lemma len_members_kill h o ob : h !! o = Some (Some ob) ->
  length (members (<[o := None]> h)) + length (o_fields ob) = length (members h).
Proof.
  revert o. induction h as [|a h IH]; intros [|o] H; cbn in H; try discriminate.
  - injection H as ->. change (<[0 := None]> (Some ob :: h)) with (None :: h). cbn [members]. rewrite !app_length. lia.
  - specialize (IH o H). change (<[S o := None]> (a :: h)) with (a :: <[o := None]> h). cbn [members]. destruct a; rewrite ?app_length; lia.
Qed.
Lemma nfields_members h : nfields h = length (members h).
Proof. unfold nfields. induction h as [|[ob|] h IH]; cbn; rewrite ?app_length; lia. Qed.

(** ** Invariant.  [E] lists the references held by temporaries. *)
Definition held (s : st) (E : list ptr) (x : nat) : nat := occ x (places s) + occ x E.
Record ginv (s : st) (E : list ptr) : Prop := {
  g_cnt : forall o ob, heap s !! o = Some (Some ob) -> o_cnt ob = N.of_nat (held s E o) /\ 0 < held s E o;
  g_dead : forall o, 0 < held s E o -> exists ob, heap s !! o = Some (Some ob);
  g_few : (N.of_nat (length (places s) + length E) < 2 ^ 32)%N;
  g_nodup : NoDup (log s);
  g_log : forall o, o ∈ log s <-> heap s !! o = Some None
}.
Lemma held_places s E x : held s E x = occ x (vars s) + occ x (members (heap s)) + occ x (map Some (raws s)) + occ x E.
Proof. unfold held, places. rewrite !occ_app. lia. Qed.
Lemma len_places s : length (places s) = length (vars s) + length (members (heap s)) + length (raws s).
Proof. unfold places. rewrite !app_length, map_length. lia. Qed.

(** transfer between states with the same objects and counts *)
Lemma ginv_move s s' E E' :
  ginv s E -> (forall x, held s' E' x = held s E x) ->
  (forall o ob, heap s' !! o = Some (Some ob) -> exists ob0, heap s !! o = Some (Some ob0) /\ o_cnt ob0 = o_cnt ob) ->
  (forall o ob0, heap s !! o = Some (Some ob0) -> exists ob, heap s' !! o = Some (Some ob)) ->
  (forall o, heap s !! o = Some None <-> heap s' !! o = Some None) ->
  log s' = log s -> length (places s') + length E' <= length (places s) + length E -> ginv s' E'.
Proof.
  intros [G1 G2 G3 G4 G5] Hh H1 H2 H3 HL HN. split.
  - intros o ob Ho. destruct (H1 o ob Ho) as (ob0 & Ho0 & Ec). rewrite Hh, <- Ec. apply G1. assumption.
  - intros o Ho. rewrite Hh in Ho. destruct (G2 o Ho) as [ob0 Hob]. apply (H2 o ob0 Hob).
  - lia.
  - rewrite HL. assumption.
  - intros o. rewrite HL, G5. apply H3.
Qed.

Lemma put_ok s l p q : get s l = Ok q -> exists s', put s l p = Ok s' /\
  (forall x, occ x (places s') + one q x = occ x (places s) + one p x) /\
  length (places s') = length (places s) /\ log s' = log s /\ raws s' = raws s /\
  (forall o, heap s !! o = Some None <-> heap s' !! o = Some None) /\
  (forall o ob, heap s' !! o = Some (Some ob) -> exists ob0, heap s !! o = Some (Some ob0) /\ o_cnt ob0 = o_cnt ob) /\
  (forall o ob0, heap s !! o = Some (Some ob0) -> exists ob, heap s' !! o = Some (Some ob)) /\
  get s' l = Ok p /\ (forall l', l' <> l -> get s' l' = get s l').
Proof.
  intros Hg. destruct l as [r|o f]; cbn in *.
  - destruct (vars s !! r) as [q'|] eqn:E; [|discriminate]. cbn in *. injection Hg as ->.
    eexists. split; [reflexivity|]. unfold places. cbn.
    assert (r < length (vars s)) by (eapply lookup_lt_Some; eassumption).
    split; [intros x; rewrite !occ_app; pose proof (occ_insert x (vars s) r p q E); lia|].
    split; [rewrite !app_length, insert_length; lia|]. repeat split; auto.
    + intros o ob Ho. eauto.
    + intros o ob Ho. eauto.
    + rewrite list_lookup_insert by assumption. reflexivity.
    + intros [r'|o f] Hne; cbn; [|reflexivity]. rewrite list_lookup_insert_ne by congruence. reflexivity.
  - unfold live in *. destruct (heap s !! o) as [[ob|]|] eqn:E; cbn in *; try discriminate.
    destruct (o_fields ob !! f) as [q'|] eqn:Ef; cbn in *; [|discriminate]. injection Hg as ->.
    eexists. split; [reflexivity|]. unfold places. cbn.
    set (ob' := {| o_cnt := o_cnt ob; o_fields := <[f:=p]> (o_fields ob) |}).
    assert (Ho : o < length (heap s)) by (eapply lookup_lt_Some; eassumption).
    assert (Hf : f < length (o_fields ob)) by (eapply lookup_lt_Some; eassumption).
    split; [intros x; rewrite !occ_app; pose proof (occ_members_set x (heap s) o ob ob' E);
      pose proof (occ_insert x (o_fields ob) f p q Ef) as K; change (<[f:=p]> (o_fields ob)) with (o_fields ob') in K; lia|].
    split; [rewrite !app_length, (len_members_set _ _ ob ob' E) by (cbn; apply insert_length); lia|].
    split; [reflexivity|]. split; [reflexivity|].
    split; [|split; [|split; [|split]]].
    + intros o'. destruct (decide (o' = o)) as [->|Hne]; [rewrite list_lookup_insert by assumption; split; congruence|].
      rewrite list_lookup_insert_ne by congruence. reflexivity.
    + intros o' ob1 H1. destruct (decide (o' = o)) as [->|Hne].
      * rewrite list_lookup_insert in H1 by assumption. injection H1 as <-. exists ob. split; [assumption|reflexivity].
      * rewrite list_lookup_insert_ne in H1 by congruence. eauto.
    + intros o' ob1 H1. destruct (decide (o' = o)) as [->|Hne].
      * rewrite list_lookup_insert by assumption. eauto.
      * rewrite list_lookup_insert_ne by congruence. eauto.
    + rewrite list_lookup_insert by assumption. cbn. rewrite list_lookup_insert by assumption. reflexivity.
    + intros [r'|o' f'] Hne; cbn; [reflexivity|]. unfold live. cbn. destruct (decide (o' = o)) as [->|Hno].
      * rewrite list_lookup_insert by assumption. rewrite E. cbn. rewrite list_lookup_insert_ne by congruence. reflexivity.
      * rewrite list_lookup_insert_ne by congruence. reflexivity.
Qed.
Lemma put_inv s l p q E : get s l = Ok q -> ginv s (p :: E) -> exists s', put s l p = Ok s' /\ ginv s' (q :: E) /\
  get s' l = Ok p /\ (forall l', l' <> l -> get s' l' = get s l') /\ raws s' = raws s /\ length (places s') = length (places s).
Proof.
  intros Hg HI. destruct (put_ok s l p q Hg) as (s' & E1 & H1 & H2 & H3 & H3' & H4 & H5 & H6 & H7 & H8).
  exists s'. split; [exact E1|]. split; [|auto]. eapply ginv_move; try eassumption.
  - intros x. unfold held. cbn [occ]. fold (one q x). fold (one p x). specialize (H1 x). lia.
  - cbn [length]. lia.
Qed.

Lemma none_inv s E : ginv s E -> (N.of_nat (length (places s) + length E) + 1 < 2 ^ 32)%N -> ginv s (None :: E).
Proof.
  intros HI Hn. destruct HI as [G1 G2 G3 G4 G5].
  assert (Eh : forall x, held s (None :: E) x = held s E x).
  { intros x. unfold held. cbn [occ]. rewrite decide_False by congruence. reflexivity. }
  split; [| | |assumption|assumption].
  - intros x ob Hx. rewrite Eh. apply G1. assumption.
  - intros x Hx. rewrite Eh in Hx. apply G2. assumption.
  - cbn [length]. lia.
Qed.
Lemma drop_none s E : ginv s (None :: E) -> ginv s E.
Proof.
  intros [G1 G2 G3 G4 G5].
  assert (Eh : forall x, held s (None :: E) x = held s E x).
  { intros x. unfold held. cbn [occ]. rewrite decide_False by congruence. reflexivity. }
  split; [| | |assumption|assumption].
  - intros x ob Hx. rewrite <- Eh. apply G1. assumption.
  - intros x Hx. rewrite <- Eh in Hx. apply G2. assumption.
  - cbn [length] in G3. lia.
Qed.
Lemma add_ref_inv s p E : ginv s E -> (forall o, p = Some o -> 0 < held s E o) ->
  (N.of_nat (length (places s) + length E) + 1 < 2 ^ 32)%N ->
  exists s', add_ref s p = Ok s' /\ ginv s' (p :: E) /\ (forall l, get s' l = get s l) /\ raws s' = raws s /\
    length (places s') = length (places s).
Proof.
  intros [G1 G2 G3 G4 G5] Hp Hn. destruct p as [o|]; cbn [add_ref].
  - destruct (G2 o (Hp o eq_refl)) as [ob Ho]. unfold live. rewrite Ho. cbn [rbind].
    set (ob' := {| o_cnt := _; o_fields := _ |}). eexists. split; [reflexivity|].
    assert (Hlt : o < length (heap s)) by (eapply lookup_lt_Some; eassumption).
    assert (Ep : forall x, occ x (places (set_heap s (<[o:=Some ob']> (heap s)))) = occ x (places s)).
    { intros x. unfold places. cbn. rewrite !occ_app. pose proof (occ_members_set x (heap s) o ob ob' Ho) as K. cbn in K. lia. }
    assert (El : length (places (set_heap s (<[o:=Some ob']> (heap s)))) = length (places s)).
    { rewrite !len_places. cbn. rewrite (len_members_set _ _ ob ob' Ho) by reflexivity. reflexivity. }
    assert (Hle : forall x, held s E x <= length (places s) + length E).
    { intros x. unfold held. pose proof (occ_le x (places s)). pose proof (occ_le x E). lia. }
    split; [|split; [|split; [reflexivity|exact El]]].
    + split.
      * intros x obx Hx. unfold held in *. rewrite Ep. cbn [occ]. cbn in Hx. destruct (decide (x = o)) as [->|Hne].
        -- rewrite list_lookup_insert in Hx by assumption. injection Hx as <-. cbn. destruct (G1 o ob Ho) as [A B]. rewrite A.
           rewrite decide_True by reflexivity. specialize (Hle o). unfold wadd. rewrite N.mod_small by lia. lia.
        -- rewrite list_lookup_insert_ne in Hx by congruence. destruct (G1 x obx Hx) as [A B]. rewrite A.
           rewrite decide_False by congruence. lia.
      * intros x Hx. unfold held in *. rewrite Ep in Hx. cbn [occ] in Hx. cbn. destruct (decide (x = o)) as [->|Hne].
        -- rewrite list_lookup_insert by assumption. eauto.
        -- rewrite list_lookup_insert_ne by congruence. apply G2. unfold held. rewrite decide_False in Hx by congruence. lia.
      * rewrite El. cbn [length]. lia.
      * exact G4.
      * intros x. cbn. rewrite G5. destruct (decide (x = o)) as [->|Hne]; [rewrite list_lookup_insert by assumption; split; congruence|].
        rewrite list_lookup_insert_ne by congruence. reflexivity.
    + intros [r|o' f]; cbn; [reflexivity|]. unfold live. cbn. destruct (decide (o' = o)) as [->|Hne].
      * rewrite list_lookup_insert by assumption. rewrite Ho. reflexivity.
      * rewrite list_lookup_insert_ne by congruence. reflexivity.
  - exists s. split; [reflexivity|]. split; [|auto]. apply none_inv; [split; assumption|assumption].
Qed.

Lemma release_inv fuel : forall s todo E, ginv s (todo ++ E) -> length todo + length (members (heap s)) < fuel ->
  exists s', release fuel s todo = Ok s' /\ ginv s' E /\ vars s' = vars s /\ raws s' = raws s /\
    length (places s') <= length (places s).
Proof.
  induction fuel as [|f IH]; intros s todo E HI Hf; [lia|]. cbn [release]. destruct todo as [|[o|] todo]; cbn [app] in HI.
  - exists s. auto.
  - pose proof HI as [G1 G2 G3 G4 G5].
    assert (Hh : 0 < held s (Some o :: todo ++ E) o) by (unfold held; cbn [occ]; rewrite decide_True by reflexivity; lia).
    destruct (G2 o Hh) as [ob Ho]. unfold live. rewrite Ho. cbn [rbind].
    assert (Hlt : o < length (heap s)) by (eapply lookup_lt_Some; eassumption).
    destruct (G1 o ob Ho) as [Ec _].
    assert (Hle : held s (Some o :: todo ++ E) o <= length (places s) + length (Some o :: todo ++ E)).
    { unfold held. pose proof (occ_le o (places s)). pose proof (occ_le o (Some o :: todo ++ E)). lia. }
    assert (Ew : wsub 32 (o_cnt ob) 1 = N.of_nat (held s (todo ++ E) o)).
    { rewrite Ec. unfold held in *. cbn [occ] in *. rewrite decide_True in * by reflexivity.
      unfold wsub. set (k := occ o (places s) + occ o (todo ++ E)) in *.
      replace (occ o (places s) + (1 + occ o (todo ++ E))) with (S k) in * by lia.
      change (2 ^ 32)%N with 4294967296%N in *. rewrite (N.mod_small 1) by lia.
      replace (N.of_nat (S k) + 4294967296 - 1)%N with (N.of_nat k + 1 * 4294967296)%N by lia.
      rewrite N.mod_add by discriminate. apply N.mod_small. lia. }
    destruct (N.eqb_spec (wsub 32 (o_cnt ob) 1) 0) as [Hz|Hz].
    + (* deletion *)
      assert (Hz' : held s (todo ++ E) o = 0) by lia.
      set (s1 := {| heap := _; vars := _; raws := _; log := _ |}).
      assert (Eh : forall x, held s1 ((rev (o_fields ob) ++ todo) ++ E) x = held s (todo ++ E) x).
      { intros x. rewrite !held_places. cbn. rewrite <- !app_assoc, !occ_app, occ_rev.
        pose proof (occ_members_kill x (heap s) o ob Ho). lia. }
      assert (Ehs : forall x, held s (todo ++ E) x + one (Some o) x = held s (Some o :: todo ++ E) x).
      { intros x. unfold held, one. cbn [occ]. lia. }
      assert (El : length (places s1) + length (o_fields ob) = length (places s)).
      { rewrite !len_places. cbn. pose proof (len_members_kill (heap s) o ob Ho). lia. }
      destruct (IH s1 (rev (o_fields ob) ++ todo) E) as (s' & E1 & HI' & Hv & Hr & Hl).
      * split.
        -- intros x obx Hx. rewrite Eh. cbn in Hx. destruct (decide (x = o)) as [->|Hne].
           { rewrite list_lookup_insert in Hx by assumption. discriminate. }
           rewrite list_lookup_insert_ne in Hx by congruence. destruct (G1 x obx Hx) as [A B].
           specialize (Ehs x). unfold one in Ehs. rewrite decide_False in Ehs by congruence. rewrite A. lia.
        -- intros x Hx. rewrite Eh in Hx. cbn. destruct (decide (x = o)) as [->|Hne]; [lia|].
           rewrite list_lookup_insert_ne by congruence. apply G2. specialize (Ehs x). lia.
        -- cbn [length] in G3. rewrite !app_length in *. rewrite rev_length. lia.
        -- cbn. apply NoDup_app. split; [assumption|]. split; [|apply NoDup_singleton].
           intros x Hx Hx'. apply elem_of_list_singleton in Hx'. subst x. apply G5 in Hx. congruence.
        -- intros x. cbn. rewrite elem_of_app, elem_of_list_singleton, G5. destruct (decide (x = o)) as [->|Hne].
           ++ rewrite list_lookup_insert by assumption. tauto.
           ++ rewrite list_lookup_insert_ne by congruence. tauto.
      * cbn. rewrite app_length, rev_length. pose proof (len_members_kill (heap s) o ob Ho). cbn [length] in Hf. lia.
      * exists s'. split; [exact E1|]. split; [assumption|]. split; [exact Hv|]. split; [exact Hr|]. lia.
    + set (s1 := set_heap _ _).
      set (ob' := {| o_cnt := wsub 32 (o_cnt ob) 1; o_fields := o_fields ob |}) in *.
      assert (Ep : forall x, occ x (places s1) = occ x (places s)).
      { intros x. unfold places. cbn. rewrite !occ_app. pose proof (occ_members_set x (heap s) o ob ob' Ho) as K. cbn in K. lia. }
      assert (El : length (places s1) = length (places s)).
      { rewrite !len_places. cbn. rewrite (len_members_set _ _ ob ob' Ho) by reflexivity. reflexivity. }
      destruct (IH s1 todo E) as (s' & E1 & HI' & Hv & Hr & Hl).
      * split.
        -- intros x obx Hx. cbn in Hx. unfold held. rewrite Ep. fold (held s (todo ++ E) x). destruct (decide (x = o)) as [->|Hne].
           ++ rewrite list_lookup_insert in Hx by assumption. injection Hx as <-. cbn. split; [exact Ew|]. lia.
           ++ rewrite list_lookup_insert_ne in Hx by congruence. destruct (G1 x obx Hx) as [A B].
              unfold held in *. cbn [occ] in *. rewrite decide_False in * by congruence. split; [exact A|lia].
        -- intros x Hx. unfold held in Hx. rewrite Ep in Hx. cbn. destruct (decide (x = o)) as [->|Hne].
           ++ rewrite list_lookup_insert by assumption. eauto.
           ++ rewrite list_lookup_insert_ne by congruence. apply G2. unfold held. cbn [occ]. lia.
        -- rewrite El. cbn [length] in G3. lia.
        -- assumption.
        -- intros x. cbn. rewrite G5. destruct (decide (x = o)) as [->|Hne]; [rewrite list_lookup_insert by assumption; split; congruence|].
           rewrite list_lookup_insert_ne by congruence. reflexivity.
      * cbn. rewrite (len_members_set _ _ ob ob' Ho) by reflexivity. cbn [length] in Hf. lia.
      * exists s'. split; [exact E1|]. split; [assumption|]. split; [exact Hv|]. split; [exact Hr|]. lia.
  - destruct (IH s todo E) as (s' & E1 & HI').
    + apply drop_none. exact HI.
    + cbn [length] in Hf. lia.
    + exists s'. split; [exact E1|exact HI'].
Qed.
Lemma rel_inv s p E : ginv s (p :: E) -> exists s', rel s p = Ok s' /\ ginv s' E /\ vars s' = vars s /\ raws s' = raws s /\
    length (places s') <= length (places s).
Proof.
  intros HI. unfold rel. apply release_inv; [exact HI|]. rewrite nfields_members. cbn [length]. lia.
Qed.
Lemma swap_in_inv s l p E : valid s l -> ginv s (p :: E) ->
  exists s', swap_in s l p = Ok (s', AUnit) /\ ginv s' E.
Proof.
  intros [q Hq] HI. unfold swap_in. rewrite Hq. cbn [rbind].
  destruct (put_inv s l p q E Hq HI) as (s1 & E1 & HI1 & _). rewrite E1. cbn [rbind].
  destruct (rel_inv s1 q E HI1) as (s2 & E2 & HI2 & _). rewrite E2. cbn [rbind]. eauto.
Qed.
Lemma push_inv s p E : ginv s (p :: E) -> ginv (push s p) E.
Proof.
  intros HI. eapply ginv_move; [exact HI| | | | | |]; cbn; eauto; try reflexivity.
  - intros x. unfold held, places. cbn. rewrite !occ_app. cbn. lia.
  - unfold places. cbn. rewrite !app_length. cbn. lia.
Qed.
Lemma occ_lookup x l i : l !! i = Some (Some x) -> 0 < occ x l.
Proof.
  revert i. induction l as [|a l IH]; intros [|i] H; cbn in *; try discriminate.
  - injection H as ->. rewrite decide_True by reflexivity. lia.
  - specialize (IH i H). lia.
Qed.
Lemma get_occ s l x : get s l = Ok (Some x) -> 0 < occ x (places s).
Proof.
  intros H. unfold places. rewrite !occ_app. destruct l as [r|o f]; cbn in H.
  - destruct (vars s !! r) eqn:E; cbn in H; [|discriminate]. injection H as ->. pose proof (occ_lookup _ _ _ E). lia.
  - unfold live in H. destruct (heap s !! o) as [[ob|]|] eqn:E; cbn in H; try discriminate.
    destruct (o_fields ob !! f) eqn:Ef; cbn in H; [|discriminate]. injection H as ->.
    pose proof (occ_lookup _ _ _ Ef). pose proof (occ_members_kill x (heap s) o ob E). lia.
Qed.
Lemma new_inv s nf : ginv s [] -> (N.of_nat (length (places s) + nf) + 1 < 2 ^ 32)%N ->
  exists s', add_ref (set_heap s (heap s ++ [Some {| o_cnt := 0; o_fields := repeat None nf |}])) (Some (length (heap s))) = Ok s' /\
    ginv s' [Some (length (heap s))].
Proof.
  intros [G1 G2 G3 G4 G5] Hn. cbn [add_ref]. unfold live. cbn [heap set_heap].
  rewrite lookup_app_r, Nat.sub_diag by lia. cbn [lookup list_lookup rbind].
  eexists. split; [reflexivity|]. cbn [heap set_heap o_cnt o_fields].
  set (o := length (heap s)) in *.
  rewrite insert_app_r_alt by lia. replace (o - length (heap s)) with 0 by lia. cbn [insert list_insert].
  set (ob := {| o_cnt := wadd 32 0 1; o_fields := repeat None nf |}).
  assert (Hn0 : forall x, occ x (repeat None nf) = 0) by (intros x; clear; induction nf; cbn; [reflexivity|]; rewrite decide_False by congruence; assumption).
  assert (Eh : forall x, held (set_heap s (heap s ++ [Some ob])) [Some o] x = held s [] x + one (Some o) x).
  { intros x. rewrite !held_places. cbn. rewrite members_app, occ_app. cbn. rewrite app_nil_r, Hn0. unfold one. lia. }
  assert (H0 : held s [] o = 0).
  { destruct (held s [] o) eqn:E; [reflexivity|]. destruct (G2 o ltac:(lia)) as [ob' Hob']. apply lookup_lt_Some in Hob'. lia. }
  change (set_heap (set_heap s (heap s ++ [Some {| o_cnt := 0; o_fields := repeat None nf |}])) (heap s ++ [Some ob]))
    with (set_heap s (heap s ++ [Some ob])).
  split.
  - intros x obx Hx. rewrite Eh. cbn in Hx. destruct (decide (x = o)) as [->|Hne].
    + rewrite lookup_app_r in Hx by lia. replace (o - length (heap s)) with 0 in Hx by lia. injection Hx as <-.
      unfold one. rewrite decide_True by reflexivity. rewrite H0. cbn. split; [reflexivity|lia].
    + assert (x < length (heap s)).
      { apply lookup_lt_Some in Hx. rewrite app_length in Hx. cbn in Hx. lia. }
      rewrite lookup_app_l in Hx by assumption. unfold one. rewrite decide_False by congruence. rewrite Nat.add_0_r. apply G1. assumption.
  - intros x Hx. rewrite Eh in Hx. cbn. destruct (decide (x = o)) as [->|Hne].
    + rewrite lookup_app_r by lia. replace (o - length (heap s)) with 0 by lia. eauto.
    + unfold one in Hx. rewrite decide_False in Hx by congruence. rewrite Nat.add_0_r in Hx. destruct (G2 x Hx) as [ob' Hob'].
      exists ob'. rewrite lookup_app_l; [assumption|]. eapply lookup_lt_Some. eassumption.
  - rewrite len_places in *. cbn. rewrite members_app, app_length. cbn. rewrite app_nil_r, repeat_length. lia.
  - assumption.
  - intros x. cbn. rewrite G5. split; intros H.
    + rewrite lookup_app_l; [assumption|]. eapply lookup_lt_Some. eassumption.
    + destruct (decide (x < length (heap s))) as [Hlt|Hge]; [rewrite lookup_app_l in H by assumption; assumption|].
      rewrite lookup_app_r in H by lia. destruct (x - length (heap s)) as [|[|k]]; discriminate.
Qed.

(** ** Every operation preserves the invariant and is defined *)
Definition Inv (s : st) : Prop := ginv s [].
Lemma few_1 s : few s -> (N.of_nat (length (places s) + 0) + 1 < 2 ^ 32)%N.
Proof. unfold few. lia. Qed.
Lemma adopt_inv s k o : Inv s -> raws s !! k = Some o -> few s ->
  ginv (set_raws s (delete k (raws s))) [Some o].
Proof.
  intros HI Hk Hf. eapply ginv_move; [exact HI| | | | | |]; cbn; eauto; try reflexivity.
  - intros x. unfold held, places. cbn. rewrite !occ_app. pose proof (occ_delete x (raws s) k o Hk) as K. unfold one in K. lia.
  - rewrite (len_places s). cbn. rewrite !app_length, map_length. pose proof (length_delete (raws s) k ltac:(eauto)).
    apply lookup_lt_Some in Hk. lia.
Qed.
Lemma assign_inv s l p : Inv s -> few s -> valid s l -> (forall o, p = Some o -> 0 < owners s o) ->
  exists s1, add_ref s p = Ok s1 /\ exists s', swap_in s1 l p = Ok (s', AUnit) /\ Inv s'.
Proof.
  intros HI Hf [q Hq] Hp.
  destruct (add_ref_inv s p [] HI) as (s1 & E1 & HI1 & Hg & _).
  - intros o Ho. unfold held. specialize (Hp o Ho). unfold owners in Hp. lia.
  - apply few_1. assumption.
  - exists s1. split; [exact E1|]. apply swap_in_inv; [|exact HI1]. exists q. rewrite Hg. exact Hq.
Qed.
Lemma take_inv s l p : Inv s -> few s -> get s l = Ok p ->
  exists s1, put s l None = Ok s1 /\ ginv s1 [p] /\ (forall l', valid s l' -> valid s1 l') /\ raws s1 = raws s.
Proof.
  intros HI Hf Hg. destruct (put_inv s l None p [] Hg) as (s1 & E1 & HI1 & Hg1 & Hg2 & Hr & _).
  - apply none_inv; [exact HI|]. apply few_1. assumption.
  - exists s1. split; [exact E1|]. split; [exact HI1|]. split; [|exact Hr].
    intros l' [q Hq]. destruct (decide (l' = l)) as [->|Hne]; [exists None; exact Hg1|].
    exists q. rewrite Hg2 by assumption. exact Hq.
Qed.
Lemma exec_inv s x : Inv s -> pre s x -> exists s' a, exec s x = Ok (s', a) /\ Inv s'.
Proof.
  intros HI [Hf Hp]. destruct x; cbn [exec].
  - destruct (new_inv s nf HI) as (s' & E & HI'); [lia|]. cbn zeta. rewrite E. cbn [rbind].
    eexists _, _. split; [reflexivity|]. apply push_inv. exact HI'.
  - eexists _, _. split; [reflexivity|]. apply push_inv, none_inv; [exact HI|apply few_1; exact Hf].
  - destruct Hp as [p Hg]. rewrite Hg. cbn [rbind].
    destruct (add_ref_inv s p [] HI) as (s1 & E1 & HI1 & _).
    { intros o ->. apply get_occ in Hg. unfold held. lia. }
    { apply few_1. assumption. }
    rewrite E1. cbn [rbind]. eexists _, _. split; [reflexivity|]. apply push_inv. exact HI1.
  - destruct Hp as [p Hg]. rewrite Hg. cbn [rbind].
    destruct (take_inv s l p HI Hf Hg) as (s1 & E1 & HI1 & _). rewrite E1. cbn [rbind].
    eexists _, _. split; [reflexivity|]. apply push_inv. exact HI1.
  - destruct Hp as [p Hg]. rewrite Hg. cbn [rbind].
    assert (HN : Inv (push s None)) by (apply push_inv, none_inv; [exact HI|apply few_1; exact Hf]).
    destruct p as [o|]; [|eauto]. destruct ok; [|eauto].
    destruct (take_inv s l _ HI Hf Hg) as (s1 & E1 & HI1 & _). rewrite E1. cbn [rbind].
    eexists _, _. split; [reflexivity|]. apply push_inv. exact HI1.
  - destruct Hp as [p Hg]. rewrite Hg. cbn [rbind].
    destruct (take_inv s _ p HI Hf Hg) as (s1 & E1 & HI1 & _). rewrite E1. cbn [rbind].
    destruct (rel_inv s1 p [] HI1) as (s2 & E2 & HI2 & _). rewrite E2. cbn [rbind]. eauto.
  - destruct Hp as [H1 [p Hg]]. destruct (decide (l1 = l2)); [eauto|]. rewrite Hg. cbn [rbind].
    destruct (assign_inv s l1 p HI Hf H1) as (s1 & E1 & s' & E2 & HI').
    { intros o ->. eapply get_occ. exact Hg. }
    rewrite E1. cbn [rbind]. eauto.
  - destruct Hp as [H1 [p Hg]]. destruct (decide (l1 = l2)); [eauto|]. rewrite Hg. cbn [rbind].
    destruct (take_inv s l2 p HI Hf Hg) as (s1 & E1 & HI1 & Hv & _). rewrite E1. cbn [rbind].
    destruct (swap_in_inv s1 l1 p [] (Hv _ H1) HI1) as (s' & E2 & HI'). eauto.
  - destruct Hp as [H1 [p Hg]]. rewrite Hg. cbn [rbind]. destruct (H1) as [q Hq]. rewrite Hq. cbn [rbind].
    destruct (decide (p = q)); [eauto|].
    destruct (assign_inv s l1 p HI Hf H1) as (s1 & E1 & s' & E2 & HI').
    { intros o ->. eapply get_occ. exact Hg. }
    rewrite E1. cbn [rbind]. eauto.
  - destruct (swap_in_inv s l None [] Hp) as (s' & E2 & HI'); [apply none_inv; [exact HI|apply few_1; exact Hf]|]. eauto.
  - destruct Hp as [H1 [p Hg]]. rewrite Hg. cbn [rbind].
    destruct (assign_inv s l1 p HI Hf H1) as (s1 & E1 & s' & E2 & HI').
    { intros o ->. eapply get_occ. exact Hg. }
    rewrite E1. cbn [rbind]. eauto.
  - destruct Hp as [[p1 H1] [p2 H2]]. rewrite H1, H2. cbn [rbind].
    destruct (put_ok s l1 p2 p1 H1) as (s1 & E1 & A1 & A2 & A3 & A3' & A4 & A5 & A6 & A7 & A8). rewrite E1. cbn [rbind].
    assert (H2' : get s1 l2 = Ok p2) by (destruct (decide (l2 = l1)) as [->|Hne]; [exact A7|rewrite A8 by assumption; exact H2]).
    destruct (put_ok s1 l2 p1 p2 H2') as (s2 & E2 & B1 & B2 & B3 & B3' & B4 & B5 & B6 & B7 & B8). rewrite E2. cbn [rbind].
    eexists _, _. split; [reflexivity|]. eapply ginv_move; [exact HI| | | | | |].
    + intros x. unfold held. specialize (A1 x). specialize (B1 x). lia.
    + intros o ob Ho. destruct (B5 o ob Ho) as (ob1 & Ho1 & Ec1). destruct (A5 o ob1 Ho1) as (ob0 & Ho0 & Ec0).
      exists ob0. split; [assumption|congruence].
    + intros o ob0 Ho. destruct (A6 o ob0 Ho) as (ob1 & Ho1). apply (B6 o ob1 Ho1).
    + intros o. rewrite A4. apply B4.
    + congruence.
    + lia.
  - destruct Hp as [p Hg]. rewrite Hg. cbn [rbind].
    destruct (take_inv s l p HI Hf Hg) as (s1 & E1 & HI1 & _). rewrite E1. cbn [rbind].
    eexists _, _. split; [reflexivity|]. destruct p as [o|].
    + eapply ginv_move; [exact HI1| | | | | |]; cbn; eauto; try reflexivity.
      * intros x. unfold held, places. cbn. rewrite map_app, !occ_app. cbn. lia.
      * rewrite (len_places s1). cbn. rewrite !app_length, map_length, app_length. cbn. lia.
    + apply drop_none. exact HI1.
  - destruct (lookup_lt_is_Some_2 (raws s) k Hp) as [o Ho]. rewrite Ho. cbn [of_option rbind].
    eexists _, _. split; [reflexivity|]. apply push_inv. apply adopt_inv; assumption.
  - destruct Hp as [[q Hq] Hk]. destruct (lookup_lt_is_Some_2 (raws s) k Hk) as [o Ho]. rewrite Ho. cbn [of_option rbind].
    destruct (swap_in_inv (set_raws s (delete k (raws s))) l (Some o) []) as (s' & E2 & HI').
    + exists q. destruct l; exact Hq.
    + apply adopt_inv; assumption.
    + eauto.
  - destruct Hp as [o Hg]. rewrite Hg. cbn [rbind]. apply get_occ in Hg.
    destruct (g_dead s [] HI o) as [ob Ho]; [unfold held; lia|]. unfold live. rewrite Ho. cbn [rbind]. eauto.
  - destruct Hp as [p Hg]. rewrite Hg. cbn [rbind]. eauto.
Qed.
Lemma init_inv : Inv init.
Proof.
  split; cbn.
  - intros o ob H. discriminate.
  - intros o H. unfold held in H. cbn in H. lia.
  - reflexivity.
  - constructor.
  - intros o. split; intros H; [inversion H|discriminate].
Qed.
Lemma reach_inv s : reach s -> Inv s.
Proof.
  induction 1 as [|s x s' a Hr IH Hp Hx]; [apply init_inv|].
  destruct (exec_inv s x IH Hp) as (s1 & a1 & E1 & HI1). congruence.
Qed.

(** ** C42 *)
(** No operation is undefined (no access to a deleted object) and every one terminates. *)
Theorem C42_safe s x : reach s -> pre s x -> exists s' a, exec s x = Ok (s', a).
Proof. intros Hr Hp. destruct (exec_inv s x (reach_inv s Hr) Hp) as (s' & a & E & _). eauto. Qed.
Print Assumptions C42_safe.

(** use_count() is the number of owners. *)
Theorem C42_use_count s l o : reach s -> get s l = Ok (Some o) -> exec s (OUseCount l) = Ok (s, ACount (N.of_nat (owners s o))).
Proof.
  intros Hr Hg. pose proof (reach_inv s Hr) as HI. cbn [exec]. rewrite Hg. cbn [rbind].
  pose proof (get_occ _ _ _ Hg) as Ho. destruct (g_dead s [] HI o) as [ob Hob]; [unfold held; lia|].
  unfold live. rewrite Hob. cbn [rbind]. destruct (g_cnt s [] HI o ob Hob) as [Ec _]. rewrite Ec.
  unfold held, owners. cbn [occ]. rewrite Nat.add_0_r. reflexivity.
Qed.
Print Assumptions C42_use_count.

(** At every point between two operations an object exists exactly while it has an owner; the
    others have been deleted, each exactly once. *)
Theorem C42_deleted_iff_unowned s : reach s ->
  (forall o, o < length (heap s) -> (o ∈ log s <-> owners s o = 0)) /\ NoDup (log s) /\
  (forall o, owners s o > 0 -> exists ob, heap s !! o = Some (Some ob)).
Proof.
  intros Hr. pose proof (reach_inv s Hr) as HI. destruct HI as [G1 G2 G3 G4 G5].
  assert (E : forall o, held s [] o = owners s o) by (intros o; unfold held, owners; cbn; lia).
  split; [|split; [exact G4|]].
  - intros o Ho. rewrite G5. destruct (lookup_lt_is_Some_2 _ _ Ho) as [[ob|] Hob]; rewrite Hob.
    + destruct (G1 o ob Hob) as [_ K]. rewrite E in K. split; [discriminate|lia].
    + split; [|reflexivity]. intros _. destruct (owners s o) eqn:Eo; [reflexivity|].
      destruct (G2 o) as [ob Hob']; [rewrite E, Eo; lia|]. congruence.
  - intros o Ho. apply G2. rewrite E. lia.
Qed.
Print Assumptions C42_deleted_iff_unowned.

(** Once deleted, never again: the log of deletions only grows, and an operation deletes only
    objects it leaves without owners. *)
Lemma release_log fuel : forall s todo s', release fuel s todo = Ok s' -> exists l, log s' = log s ++ l.
Proof.
  induction fuel as [|f IH]; intros s todo s' H; [discriminate|]. cbn [release] in H. destruct todo as [|[o|] todo].
  - injection H as <-. exists []. rewrite app_nil_r. reflexivity.
  - unfold live in H. destruct (heap s !! o) as [[ob|]|]; cbn [rbind] in H; try discriminate.
    destruct (N.eqb _ _); apply IH in H; cbn in H; destruct H as [l ->].
    + exists (o :: l). rewrite <- app_assoc. reflexivity.
    + eauto.
  - apply IH in H. assumption.
Qed.

(** When no variable and no raw pointer owns anything any more, and the objects' members form no
    cycle, everything has been deleted. *)
Lemma occ_members_pos x h : 0 < occ x (members h) -> exists o ob f, h !! o = Some (Some ob) /\ o_fields ob !! f = Some (Some x).
Proof.
  induction h as [|a h IH]; cbn; [lia|]. intros H. destruct a as [ob|].
  - rewrite occ_app in H. destruct (decide (0 < occ x (o_fields ob))) as [Hp|Hz].
    + exists 0, ob. cut (exists f, o_fields ob !! f = Some (Some x)); [intros [f Hf]; eauto|].
      clear - Hp. induction (o_fields ob) as [|a l IH]; cbn in Hp; [lia|]. destruct (decide (a = Some x)) as [->|Hne].
      * exists 0. reflexivity.
      * destruct IH as [f Hf]; [lia|]. exists (S f). exact Hf.
    + destruct IH as (o & ob' & f & A & B); [lia|]. exists (S o), ob', f. auto.
  - destruct (IH H) as (o & ob' & f & A & B). exists (S o), ob', f. auto.
Qed.
Theorem C42_no_leak s (rank : nat -> nat) : reach s ->
  Forall (fun p => p = None) (vars s) -> raws s = [] ->
  (forall o f o', get s (LField o f) = Ok (Some o') -> rank o < rank o') ->
  forall o, o < length (heap s) -> o ∈ log s.
Proof.
  intros Hr Hv Hw Hrank. pose proof (reach_inv s Hr) as HI. destruct HI as [G1 G2 G3 G4 G5].
  assert (Hall : forall n o, rank o < n -> heap s !! o <> None -> heap s !! o = Some None).
  { induction n as [|n IH]; intros o Ho Hn; [lia|]. destruct (heap s !! o) as [[ob|]|] eqn:E; [|reflexivity|congruence].
    exfalso. destruct (G1 o ob E) as [_ K]. rewrite held_places, Hw in K. cbn in K.
    assert (Hz : occ o (vars s) = 0).
    { clear -Hv. induction Hv as [|p l ->]; cbn; [reflexivity|]. rewrite decide_False by congruence. assumption. }
    destruct (occ_members_pos o (heap s)) as (o1 & ob1 & f & A & B); [lia|].
    specialize (Hrank o1 f o). cbn in Hrank. unfold live in Hrank. rewrite A in Hrank. cbn in Hrank. rewrite B in Hrank.
    specialize (Hrank eq_refl). specialize (IH o1 ltac:(lia)). rewrite A in IH. specialize (IH ltac:(congruence)). congruence. }
  intros o Ho. apply G5. apply (Hall (S (rank o))); [lia|]. apply lookup_lt_is_Some_2 in Ho. destruct Ho as [? ->]. congruence.
Qed.
Print Assumptions C42_no_leak.

(** The bound on the number of owners is needed: the counter is an unsigned int.  With 2^32 + 1
    owners the count is 1, and destroying one of them deletes the object under the others. *)
Fixpoint run (s : st) (l : list op) : res st :=
  match l with
  | [] => Ok s
  | x :: l' => let* r := exec s x in run (fst r) l'
  end.
Lemma run_app s l1 l2 : run s (l1 ++ l2) = let* s := run s l1 in run s l2.
Proof.
  revert s. induction l1 as [|x l1 IH]; intros s; cbn; [reflexivity|]. destruct (exec s x); cbn; auto.
Qed.
Definition many (c : N) (n : nat) : st :=
  {| heap := [Some {| o_cnt := c; o_fields := [] |}]; vars := repeat (Some 0) n; raws := []; log := [] |}.
Lemma copy_many c m : exec (many c (S m)) (OCopy (LVar 0)) = Ok (many ((c + 1) mod 2 ^ 32)%N (S (S m)), APtr (Some 0)).
Proof.
  assert (E : Some 0 :: repeat (Some 0) m ++ [Some 0] = repeat (Some 0) (S (S m))).
  { change [Some 0] with (repeat (Some 0) 1). change (Some 0 :: repeat (Some 0) m ++ repeat (Some 0) 1)
      with (repeat (Some 0) (S m) ++ repeat (Some 0) 1). rewrite <- repeat_app. f_equal. lia. }
  unfold many. rewrite <- E. reflexivity.
Qed.
Lemma copies n : forall c m, run (many c (S m)) (repeat (OCopy (LVar 0)) n) = Ok (many ((c + N.of_nat n) mod 2 ^ 32)%N (S m + n)) \/ n = 0.
Proof.
  induction n as [|n IH]; intros c m; [right; reflexivity|]. left. cbn [repeat run]. rewrite copy_many. cbn [rbind fst].
  destruct (IH ((c + 1) mod 2 ^ 32)%N (S m)) as [E|E].
  - rewrite E. f_equal. f_equal; [|lia]. rewrite N.add_mod_idemp_l by discriminate. f_equal. lia.
  - subst n. cbn [repeat run]. f_equal. f_equal. lia.
Qed.
Theorem C42_counter_wrap_refuted : exists prog s, run init prog = Ok s /\
  owners s 0 > 0 /\ 0 ∈ log s /\ get s (LVar 0) = Ok (Some 0) /\ exec s (OUseCount (LVar 0)) = UB.
Proof.
  assert (HN : exists n, n <> 0 /\ (N.of_nat n = 2 ^ 32)%N).
  { exists (N.to_nat (2 ^ 32)). rewrite N2Nat.id. split; [|reflexivity]. intros H.
    apply (f_equal N.of_nat) in H. rewrite N2Nat.id in H. discriminate. }
  destruct HN as (n & Hn & En).
  exists ([ONew 0] ++ repeat (OCopy (LVar 0)) n ++ [ODestroy n]).
  destruct n as [|n]; [congruence|].
  rewrite run_app. assert (E0 : run init [ONew 0] = Ok (many 1 1)) by reflexivity. rewrite E0. cbn [rbind].
  rewrite run_app. destruct (copies (S n) 1%N 0) as [E|E]; [|discriminate]. rewrite E. cbn [rbind].
  replace ((1 + N.of_nat (S n)) mod 2 ^ 32)%N with 1%N by (rewrite En; reflexivity).
  cbn [run exec get]. unfold many. cbn [vars].
  assert (El : repeat (Some 0) (1 + S n) !! S n = Some (Some 0)).
  { clear. induction n as [|n IH]; [reflexivity|]. cbn in *. exact IH. }
  rewrite El. cbn [of_option rbind put]. cbn [vars]. rewrite El. cbn [of_option rbind].
  unfold rel. cbn [Nat.add nfields heap set_vars release live map sum_list]. cbn -[repeat insert].
  eexists. split; [reflexivity|]. cbn -[repeat insert occ places].
  assert (E1 : (<[S n := None]> (repeat (Some 0) (S (S n))) : list (option nat)) !! 0 = Some (Some 0)) by reflexivity.
  split; [|split; [|split]].
  - unfold owners, places. cbn [vars]. rewrite occ_app. pose proof (occ_lookup _ _ _ E1). lia.
  - apply elem_of_list_singleton. reflexivity.
  - reflexivity.
  - reflexivity.
Qed.
Print Assumptions C42_counter_wrap_refuted.

(** Examples: a linked list a -> b with [head = head->next], the idiom that deletes the object
    holding the right-hand side; a detach and re-adoption. *)
Definition ex_prog : list op :=
  [ONew 1; ONew 1; OAssign (LField 0 0) (LVar 1); ODestroy 1;  (* head = var 0; head->next = b *)
   OAssign (LVar 0) (LField 0 0);                                (* head = head->next *)
   OCopy (LVar 0); ODetach (LVar 0); OAdopt 0; OMoveAssign (LVar 2) (LVar 3); OReset (LVar 2)].
Example ex_run : rmap log (run init ex_prog) = Ok [0; 1].
Proof. vm_compute. reflexivity. Qed.
Example ex_head_next : rmap (fun s => (log s, get s (LVar 0))) (run init (firstn 5 ex_prog)) = Ok ([0], Ok (Some 1)).
Proof. vm_compute. reflexivity. Qed.
Lemma run_reach s l s' : reach s -> run s l = Ok s' ->
  (forall k x sk, l !! k = Some x -> run s (firstn k l) = Ok sk -> pre sk x) -> reach s'.
Proof.
  revert s. induction l as [|x l IH]; intros s Hr H Hp; cbn in H; [injection H as <-; exact Hr|].
  destruct (exec s x) as [[s1 a]| | | |] eqn:E; cbn in H; try discriminate.
  apply (IH s1); [|exact H|].
  - eapply reach_step; [exact Hr| |exact E]. apply (Hp 0 x s); reflexivity.
  - intros k y sk Hk Hs. apply (Hp (S k) y sk Hk). cbn. rewrite E. exact Hs.
Qed.
Example ex_reach : exists s, reach s /\ run init ex_prog = Ok s /\ length (heap s) = 2.
Proof.
  destruct (run init ex_prog) as [s| | | |] eqn:E; try (vm_compute in E; discriminate).
  exists s. split; [|split; [reflexivity|vm_compute in E; injection E as <-; reflexivity]].
  apply (run_reach init ex_prog s reach_init E).
  intros k x sk Hk Hs.
  do 10 (destruct k as [|k]; [vm_compute in Hk; injection Hk as <-; vm_compute in Hs; injection Hs as <-;
    split; [vm_compute; reflexivity|]; cbn; try exact I; try lia; repeat split; eexists; reflexivity|]).
  apply lookup_lt_Some in Hk. cbn in Hk. lia.
Qed.
