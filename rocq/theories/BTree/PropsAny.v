(** C71: the B-tree containers when the comparator is not a strict weak order: it may contradict itself, answer differently each time it
    is asked, and throw.  What is lost is the order; what is kept is the container. *)
From stdpp Require Import list sorting.
From Coq Require Import Arith Lia ZifyBool ZifyNat Sorting.Sorted.
From Verif.Common Require Import Res.
From Verif.BTree Require Import Tree TreeFacts Balance Search Spec SearchFacts Ops Iter OpsFacts SpecFacts Refine Refine2 Api ApiSpec ApiFacts Compare CompareFacts AnyFacts PropsBTree.
Local Open Scope nat_scope.
Local Open Scope res_scope.

(** ** Specification: sequences of values *)
Section AnySpec.
Context {V K : Type} (key : V -> K) (multi : bool).
Implicit Types (v : V) (l : list V).
(* some of the values vs (all of them if keys may repeat) are somewhere between the values of l, which stay in their order *)
Definition adds l (vs : list V) l' : Prop :=
  exists new, sublist new vs /\ (multi = true -> new = vs) /\ sublist l l' /\ l' ≡ₚ l ++ new.
Definition any_step l (o : op V K) l' (r : out V) : Prop :=
  match o with
  | Insert v => (exists i, i <= length l /\ l' = insert_at i v l /\ r = RPos i true) \/ (multi = false /\ l' = l /\ exists i, i < length l /\ r = RPos i false)
  | InsertHint _ v => exists i, r = RPos i true /\ (i <= length l /\ l' = insert_at i v l \/ multi = false /\ l' = l /\ i < length l)
  | InsertRange vs => adds l vs l' /\ r = RUnit
  | EraseKey _ => exists i n, i + n <= length l /\ l' = remove_at i n l /\ r = RNum n /\ (multi = false -> n <= 1)
  | ExtractKey _ => l' = l /\ r = ROpt None \/ exists i v, l !! i = Some v /\ l' = remove_at i 1 l /\ r = ROpt (Some v)
  | Find _ | LowerBound _ | UpperBound _ => l' = l /\ exists i, i <= length l /\ r = RPos i true
  | Contains _ => l' = l /\ exists x, r = RBool x
  | Count _ => l' = l /\ exists n, n <= length l /\ r = RNum n /\ (multi = false -> n <= 1)
  | EqualRange _ => l' = l /\ exists i j, i <= length l /\ j <= length l /\ r = RPair i j
  | _ => step key (fun _ _ => false) multi l o l' r                    (* these do not mention the order *)
  end.
(* the comparator threw: nothing has happened, except that some of a range has been inserted.  The first value of a container is not compared *)
Definition any_throw l (o : op V K) l' : Prop :=
  match o with
  | InsertRange vs => exists n, n < length vs /\ adds l (take n vs) l' /\ l' <> []
  | Insert _ | InsertHint _ _ => l' = l /\ l <> []
  | _ => l' = l
  end.
Inductive answer := Returned (r : out V) | Threw.
Definition answers l (o : op V K) l' (a : answer) : Prop := match a with Returned r => any_step l o l' r | Threw => any_throw l o l' end.
(* the calls that walk from the lower bound of a key to its upper bound *)
Definition walks (o : op V K) : bool := match o with EraseKey _ | Count _ => multi | _ => false end.
End AnySpec.
Arguments answer : clear implicits.

(** ** Programs: every call meets its own comparator, which throws after its own number of calls; the program catches what is thrown *)
Section AnyRun.
Context {V K : Type} (key : V -> K) (kN : nat) (m : mode).
Implicit Types (b : btree V) (l : list V).
Record acall := mkACall { a_op : op V K; a_lt : nat -> K -> K -> bool; a_calls : nat }.
Definition acall_run b (a : acall) : option (btree V * answer V) :=
  match call_c key (a_lt a) kN m b (a_op a) (a_calls a) with CRet b' r _ => Some (b', Returned r) | CThrow b' => Some (b', Threw) | CBad => None end.
Fixpoint any_run b (p : list acall) : option (btree V * list (answer V)) :=
  match p with
  | [] => Some (b, [])
  | a :: p' => match acall_run b a with
               | Some (b', x) => match any_run b' p' with Some (b'', xs) => Some (b'', x :: xs) | None => None end
               | None => None
               end
  end.
(* a comparator that is a function and never orders two keys both ways: < of floating-point numbers, also with NaN *)
Definition asym (lt : K -> K -> bool) : Prop := forall x y, lt x y = true -> lt y x = false.
(* the positions that the program names exist; a call that walks between two bounds is made with such a comparator *)
Fixpoint any_safe l (p : list acall) : Prop :=
  match p with
  | [] => True
  | a :: p' => pre key l (a_op a) /\ (walks (multi m) (a_op a) = false \/ exists lt, asym lt /\ a_lt a = fun _ => lt) /\ forall l' x, answers key (multi m) l (a_op a) l' x -> any_safe l' p'
  end.
Fixpoint any_steps l (p : list acall) l' (xs : list (answer V)) : Prop :=
  match p, xs with
  | [], [] => l' = l
  | a :: p', x :: xs' => exists l1, answers key (multi m) l (a_op a) l1 x /\ any_steps l1 p' l' xs'
  | _, _ => False
  end.
End AnyRun.

Section Props.
Context {V K : Type} (key : V -> K) (kN : nat) (m : mode).
Context (HkN : 3 <= kN).
Implicit Types (b : btree V) (v : V) (l : list V).
Notation any := (repr key (@flat K) kN flat_mode).

Lemma insert_at_perm i v l : insert_at i v l ≡ₚ v :: l.
Proof. unfold insert_at. rewrite <- Permutation_middle, take_drop. done. Qed.
Lemma insert_at_sublist i v l : sublist l (insert_at i v l).
Proof. unfold insert_at. rewrite <- (take_drop i l) at 1. apply sublist_app; [done|]. by constructor. Qed.
Lemma adds_nil l : adds (multi m) l [] l.
Proof. exists []. by rewrite app_nil_r. Qed.
Lemma adds_one l vs l1 v l2 : adds (multi m) l1 vs l2 -> (exists i, l1 = insert_at i v l) \/ (multi m = false /\ l1 = l) -> adds (multi m) l (v :: vs) l2.
Proof.
  intros (new & H1 & H2 & H3 & H4) [[i ->]|[Hm ->]].
  - exists (v :: new). split; [by constructor|]. split; [intros E; by rewrite H2|]. split; [etrans; [apply insert_at_sublist|done]|]. rewrite H4, insert_at_perm. cbn. apply Permutation_middle.
  - exists new. split; [by constructor|]. split; [by rewrite Hm|done].
Qed.
Lemma with_root_any b l : any b l -> l <> [] -> with_root b = b.
Proof. intros Hb Hl. rewrite fresh_root, (repr_empty key flat kN flat_mode b l Hb). by destruct l. Qed.

Definition done_with b l (o : op V K) (x : co (V := V)) : Prop :=
  match x with
  | CRet b' r _ => exists l', any b' l' /\ any_step key (multi m) l o l' r
  | CThrow b' => exists l', any b' l' /\ any_throw (multi m) l o l'
  | CBad => False
  end.
Lemma catch_post b b0 l o (c : M (btree V * out V)) (T : Prop) n : post T c (fun x => exists l', any (fst x) l' /\ any_step key (multi m) l o l' (snd x)) ->
  (T -> exists l', any b0 l' /\ any_throw (multi m) l o l') -> done_with b l o (catch b0 c n).
Proof. intros H HT. unfold catch. specialize (H n). destruct (c n) as [[[b' r] n']| | | |]; cbn in *; auto. Qed.
Lemma catch_same b l o (c : M (btree V * out V)) n : any b l -> any_throw (multi m) l o l -> post True c (fun x => exists l', any (fst x) l' /\ any_step key (multi m) l o l' (snd x)) -> done_with b l o (catch b c n).
Proof. intros Hb Ht H. eapply catch_post; [exact H|]. eauto. Qed.
Lemma catch_root b l o (c : M (btree V * out V)) n : any b l -> (l <> [] -> any_throw (multi m) l o l) -> post (l <> []) c (fun x => exists l', any (fst x) l' /\ any_step key (multi m) l o l' (snd x)) ->
  done_with b l o (catch (with_root b) c n).
Proof. intros Hb Ht H. eapply catch_post; [exact H|]. intros Hl. rewrite (with_root_any b l Hb Hl). eauto. Qed.
Notation index b l i c H1 H2 := (index_of_spec key flat kN flat_mode HkN b l i c H1 H2).
Lemma range_post lt vs : forall b l n, any b l -> match insert_range_c key lt kN m b vs n with
  | CRet b' r _ => exists l', any b' l' /\ adds (multi m) l vs l' /\ r = RUnit
  | CThrow b' => exists l' j, any b' l' /\ j < length vs /\ adds (multi m) l (take j vs) l' /\ l' <> []
  | CBad => False
  end.
Proof.
  induction vs as [|v vs IH]; intros b l n Hb; cbn [insert_range_c]. { exists l. split; [done|]. split; [apply adds_nil|done]. }
  assert (post (l <> []) (let! e := lift (end_ b) in hint_c key lt kN m b e v) (fun b' => exists l1, any b' l1 /\ ((exists i, l1 = insert_at i v l) \/ (multi m = false /\ l1 = l)))) as H.
  { destruct (end_it key flat kN flat_mode b l Hb) as (e & Ee & He). eapply post_then; [exact Ee|]. unfold hint_c. destruct (multi m).
    - eapply post_bind; [by eapply insert_hint_multi_post|]. intros [b' c'] (i & Hi & Hb' & _). apply post_ret. eauto.
    - eapply post_bind; [by eapply insert_hint_unique_post|]. intros [[b' c'] ins]. cbn [added]. destruct ins; [intros (i & Hi & Hb' & _)|intros (-> & _)]; apply post_ret; eauto. }
  specialize (H n). destruct ((let! e := lift (end_ b) in hint_c key lt kN m b e v) n) as [[b' n']| | | |]; try done.
  - destruct H as (l1 & Hb1 & H1). specialize (IH b' l1 n' Hb1). destruct (insert_range_c key lt kN m b' vs n') as [b2 r n2|b2|]; [| |done].
    + destruct IH as (l' & Hb' & Ha & ->). exists l'. split; [done|]. split; [|done]. by eapply adds_one.
    + destruct IH as (l' & j & Hb' & Hj & Ha & Hne). exists l', (S j). split; [done|]. split; [cbn; lia|]. split; [|done]. cbn [take]. by eapply adds_one.
  - exists l, 0. rewrite (with_root_any b l Hb H). split; [done|]. split; [cbn; lia|]. split; [apply adds_nil|done].
Qed.
Lemma call_flat lt b (o : op V K) : match o with
    EraseAt _ | EraseRange _ _ | EraseIf _ | Clear | ExtractAt _ | Deref _ | Size | Empty | Forward | Backward | CopyTo | Overwrite _ _ | Height => True | _ => False end ->
  call key lt kN m b o = call key flat kN flat_mode b o.
Proof.
  destruct o; try done; intros _. cbn [call]. f_equal. unfold copy. destruct (values b) as [[|v vs]| | | |]; try done. cbn [rbind]. f_equal.
  unfold insert_multi, internal_upper_bound. cbn. unfold node_upper. by destruct (linear m).
Qed.
Lemma call_any lt b l o n : any b l -> pre key l o -> walks (multi m) o = false -> done_with b l o (call_c key lt kN m b o n).
Proof.
  intros Hb Hp Hw. 
  assert (Hfl : match o with
    EraseAt _ | EraseRange _ _ | EraseIf _ | Clear | ExtractAt _ | Deref _ | Size | Empty | Forward | Backward | CopyTo | Overwrite _ _ | Height => True | _ => False end ->
    done_with b l o (catch b (lift (call key (lt 0) kN m b o)) n)).
  { intros Ho. rewrite (call_flat (lt 0) b o Ho). destruct (call_spec key flat kN flat_mode flat_swo HkN b l o Hb Hp) as (b' & r & l' & Hc & Hb' & Hs). rewrite Hc. cbn.
    exists l'. split; [done|]. destruct o; try done; exact Hs. }
  destruct o as [v|i v|vs|k|i|i j|pred| |i|k|k|k|k|k|k|k|i| | | | | |i v|]; cbn [call_c]; try (by apply Hfl); clear Hfl; cbn [pre walks] in *.
  - apply (catch_root b l); [done|done|]. destruct (multi m) eqn:Em.
    + eapply post_bind; [by apply (insert_multi_post key kN HkN lt m b l)|]. intros [b' c'] (i & Hi & Hb' & Hc'). unfold pos_c. eapply post_lift; [cbn [with_pos]; rewrite (index b' _ i c' Hb' Hc'); done|].
      cbn [fst snd]. eexists. split; [done|]. left. eauto.
    + eapply post_bind; [by apply (insert_unique_post key kN HkN lt m b l)|]. intros [[b' c'] ins]. cbn [added]. destruct ins.
      * intros (i & Hi & Hb' & Hc'). unfold pos_c. eapply post_lift; [cbn [with_pos]; rewrite (index b' _ i c' Hb' Hc'); done|]. cbn [fst snd]. eexists. split; [done|]. left. eauto.
      * intros (-> & i & Hi & Hc'). unfold pos_c. eapply post_lift; [cbn [with_pos]; rewrite (index b _ i c' Hb Hc'); done|]. cbn [fst snd]. eexists. split; [done|]. right. eauto.
  - apply (catch_root b l); [done|done|]. destruct (at_index_spec key flat kN flat_mode HkN b l i Hb Hp) as (h & Eh & Hh). eapply post_then; [exact Eh|]. destruct (multi m) eqn:Em.
    + eapply post_bind; [by eapply (insert_hint_multi_post key kN HkN lt m b l)|]. intros [b' c'] (j & Hi & Hb' & Hc'). unfold pos_c. eapply post_lift; [cbn [with_pos]; rewrite (index b' _ j c' Hb' Hc'); done|].
      cbn [fst snd]. eexists. split; [done|]. exists j. auto.
    + eapply post_bind; [by eapply (insert_hint_unique_post key kN HkN lt m b l)|]. intros [[b' c'] ins]. cbn [added]. destruct ins.
      * intros (j & Hi & Hb' & Hc'). unfold pos_c. eapply post_lift; [cbn [with_pos]; rewrite (index b' _ j c' Hb' Hc'); done|]. cbn [fst snd]. eexists. split; [done|]. exists j. auto.
      * intros (-> & j & Hi & Hc'). unfold pos_c. eapply post_lift; [cbn [with_pos]; rewrite (index b _ j c' Hb Hc'); done|]. cbn [fst snd]. eexists. split; [done|]. exists j. auto.
  - pose proof (range_post lt vs b l n Hb) as H. destruct (insert_range_c key lt kN m b vs n) as [b' r n'|b'|]; cbn; [exact H| |done]. destruct H as (l' & j & H1 & H2 & H3). eauto 7.
  - rewrite Hw. apply (catch_same b l); [done|done|]. eapply post_bind; [eapply (post_bind _ _ _ _ (fun x : btree V * nat => exists l', any (fst x) l' /\ any_step key (multi m) l (EraseKey k) l' (RNum (snd x)))); [by apply (internal_find_post key kN HkN lt m b l)|]|].
    + intros [c|].
      * intros (i & Hi & Hil). destruct (erase_it key flat kN flat_mode HkN b l i c Hb Hi Hil) as (b' & c' & E & Hb' & _). eapply post_lift; [rewrite E; done|]. cbn [fst snd]. eexists. split; [done|].
        exists i, 1. split; [lia|]. auto.
      * intros _. apply post_ret. exists l. split; [done|]. exists 0, 0. split; [lia|]. unfold remove_at. cbn. auto.
    + intros [b' i] H. apply post_ret. exact H.
  - apply (catch_same b l); [done|done|]. eapply post_bind; [by apply (find_post key kN HkN lt m b l)|]. intros c (i & Hi & Hil). destruct (end_it key flat kN flat_mode b l Hb) as (e & Ee & He). eapply post_then; [exact Ee|].
    rewrite (same_r key flat kN flat_mode b l i (length l) c e Hb Hi He). destruct (i =? length l) eqn:E; [apply post_ret; exists l; split; [done|]; by left|].
    destruct (lookup_lt_is_Some_2 l i) as [v Hv]; [lia|]. destruct (extract_spec key flat kN flat_mode HkN b l i c v Hb Hi Hv) as (b' & Ex & Hb'). eapply post_lift; [rewrite Ex; done|]. cbn [fst snd].
    eexists. split; [done|]. right. eauto 6.
  - apply (catch_same b l); [done|done|]. eapply post_bind; [by apply (find_post key kN HkN lt m b l)|]. intros c (i & Hi & Hil). eapply post_lift; [rewrite (index b l i c Hb Hi); done|]. exists l. split; [done|]. split; [done|]. eauto.
  - apply (catch_same b l); [done|done|]. eapply post_bind; [by apply (find_post key kN HkN lt m b l)|]. intros c (i & Hi & Hil). destruct (end_it key flat kN flat_mode b l Hb) as (e & Ee & He). eapply post_lift; [rewrite Ee; done|].
    exists l. split; [done|]. split; [done|]. eauto.
  - rewrite Hw. apply (catch_same b l); [done|done|]. eapply post_bind; [eapply (post_bind _ _ _ _ (fun x : nat => x <= 1 /\ x <= length l)); [by apply (internal_find_post key kN HkN lt m b l)|]|].
    + intros [c|]; [intros (i & Hi & Hil)|intros _]; apply post_ret; lia.
    + intros i [H1 H2]. apply post_ret. exists l. split; [done|]. split; [done|]. exists i. auto.
  - apply (catch_same b l); [done|done|]. eapply post_bind; [by apply (lower_post key kN HkN lt m b l)|]. intros c (i & Hi & Hil). eapply post_lift; [rewrite (index b l i c Hb Hi); done|]. exists l. split; [done|]. split; [done|]. eauto.
  - apply (catch_same b l); [done|done|]. eapply post_bind; [by apply (upper_post key kN HkN lt m b l)|]. intros c (i & Hi & Hil). eapply post_lift; [rewrite (index b l i c Hb Hi); done|]. exists l. split; [done|]. split; [done|]. eauto.
  - apply (catch_same b l); [done|done|]. eapply post_bind; [by apply (lower_post key kN HkN lt m b l)|]. intros c (i & Hi & Hil). eapply post_bind; [by apply (upper_post key kN HkN lt m b l)|]. intros d (j & Hj & Hjl).
    eapply post_lift; [rewrite (index b l i c Hb Hi); cbn [rbind]; rewrite (index b l j d Hb Hj); done|]. exists l. split; [done|]. split; [done|]. eauto 6.
Qed.

(** ** comparators that are asymmetric functions: the lower bound of a key is not behind its upper bound *)
Context (lt : K -> K -> bool) (Hasym : asym lt).
Lemma linear_le (p q : K -> K -> bool) k ks : (forall x, p x k = true -> q x k = true) -> linear_bool p k ks <= linear_bool q k ks.
Proof. intros H. induction ks as [|x ks IH]; cbn; [done|]. specialize (H x). destruct (p x k); [rewrite H by done; lia|lia]. Qed.
Lemma linear_three_fst k ks : fst (linear_three lt k ks) = linear_bool lt k ks.
Proof. induction ks as [|x ks IH]; cbn; [done|]. unfold cmp3. destruct (lt x k); [destruct (linear_three lt k ks); cbn in *; lia|]. by destruct (lt k x). Qed.
Lemma linear_len (p : K -> K -> bool) k ks : linear_bool p k ks <= length ks.
Proof. induction ks as [|x ks IH]; cbn; [done|]. destruct (p x k); lia. Qed.
Lemma binary_in (p : K -> K -> bool) k ks fuel : forall s e, s <= e -> s <= binary_bool p k ks fuel s e <= e.
Proof.
  induction fuel as [|fuel IH]; intros s e H; cbn [binary_bool]; [lia|]. destruct (s =? e) eqn:E; [lia|]. cbv zeta. pose proof (mid_bounds s e ltac:(lia)) as Hm.
  destruct (ks !! _) as [x|]; [|lia]. destruct (p x k); [specialize (IH ((s + e) / 2 + 1) e)|specialize (IH s ((s + e) / 2))]; lia.
Qed.
Lemma binary_le (p q : K -> K -> bool) k ks fuel : (forall x, p x k = true -> q x k = true) -> forall s e, s <= e -> binary_bool p k ks fuel s e <= binary_bool q k ks fuel s e.
Proof.
  intros H. induction fuel as [|fuel IH]; intros s e Hse; cbn [binary_bool]; [lia|]. destruct (s =? e) eqn:E; [lia|]. cbv zeta. pose proof (mid_bounds s e ltac:(lia)) as Hm.
  destruct (ks !! _) as [x|]; [|lia]. specialize (H x). destruct (p x k); [rewrite H by done; apply IH; lia|]. destruct (q x k); [|apply IH; lia].
  pose proof (binary_in p k ks fuel s ((s + e) / 2) ltac:(lia)). pose proof (binary_in q k ks fuel ((s + e) / 2 + 1) e ltac:(lia)). lia.
Qed.
Lemma binary_three_le mu (q : K -> K -> bool) k ks fuel : (forall x, lt k x = false -> q x k = true) -> (forall x, lt k x = true -> q x k = false) -> forall s e ex, s <= e ->
  fst (binary_three lt mu k ks fuel s e ex) <= binary_bool q k ks fuel s e /\ s <= fst (binary_three lt mu k ks fuel s e ex) <= e.
Proof.
  intros H1 H2. induction fuel as [|fuel IH]; intros s e ex Hse; cbn [binary_three binary_bool]; [cbn; lia|]. destruct (s =? e) eqn:E; [cbn; lia|]. cbv zeta. pose proof (mid_bounds s e ltac:(lia)) as Hm.
  destruct (ks !! _) as [x|]; [|cbn; lia]. specialize (H1 x). specialize (H2 x). unfold cmp3. destruct (lt x k) eqn:E1.
  - rewrite H1 by (by apply Hasym). destruct (IH ((s + e) / 2 + 1) e ex ltac:(lia)). lia.
  - destruct (lt k x) eqn:E2.
    + rewrite H2 by done. destruct (IH s ((s + e) / 2) ex ltac:(lia)). lia.
    + rewrite H1 by done. pose proof (binary_in q k ks fuel ((s + e) / 2 + 1) e ltac:(lia)). destruct mu; [destruct (IH s ((s + e) / 2) true ltac:(lia)); lia|cbn [fst]; lia].
Qed.
Lemma node_le k ks : fst (node_lower lt m k ks) <= fst (node_upper lt m k ks) <= length ks.
Proof.
  assert (Ha : forall x, lt x k = true -> upper_adapter lt x k = true). { intros x H. unfold upper_adapter. by rewrite (Hasym _ _ H). }
  unfold node_lower, node_upper. destruct (three m), (linear m); cbn [fst].
  - rewrite linear_three_fst. split; [by apply linear_le|apply linear_len].
  - pose proof (binary_in (upper_adapter lt) k ks (length ks) 0 (length ks) ltac:(lia)). split; [|lia]. apply binary_three_le; [| |lia]; intros x H0; unfold upper_adapter; by rewrite H0.
  - split; [by apply linear_le|apply linear_len].
  - pose proof (binary_in (upper_adapter lt) k ks (length ks) 0 (length ks) ltac:(lia)). split; [|lia]. by apply binary_le; [|lia].
Qed.
Lemma descend_in (p : list K -> nat * bool) h : forall t ps, wf kN h t -> (forall ks, fst (p ks) <= length ks) ->
  exists c : cursor V, descend key h false p t ps = Ok (c, false) /\ root_of c = close_all ps t /\ c_sub c = Nil /\
    length (before ps) <= length (before (c_path c)) <= length (before ps) + length (elems t).
Proof.
  induction h as [|h IH]; intros [|a k0 rest] ps Hw Hp; try done.
  { exists (mkCur ps Nil). cbn. split; [done|]. split; [done|]. split; [done|]. lia. }
  cbn [descend]. specialize (Hp (map (fun x => key (fst x)) rest)) as Hi. destruct (p _) as [i e]. cbn [fst] in Hi. rewrite map_length in Hi.
  destruct (child_at_spec i a k0 rest Hi) as (f & t' & -> & Hcl & _). cbn [rbind andb]. rewrite <- Hcl in Hw |- *. apply wf_close in Hw as (_ & Hw & _).
  destruct (IH t' (f :: ps) Hw Hp) as (c & -> & H1 & H2 & H3). exists c. split; [done|]. split; [done|]. split; [done|]. rewrite close_elems, !app_length. cbn [before] in H3. rewrite app_length in H3. lia.
Qed.
Lemma walk_before i : forall j k0 (rest : list (V * node V)) (l : list (node V * V)) t r (l' : list (node V * V)) t' r', walk i k0 rest = Some (l, t, r) -> walk j k0 rest = Some (l', t', r') -> i < j -> length (cat_l l) + length (elems t) <= length (cat_l l').
Proof.
  induction i as [|i IH]; intros j k0 rest l t r l' t' r' H1 H2 Hij; (destruct j as [|j]; [lia|]); destruct rest as [|[v k1] rest]; try done; cbn in H1, H2;
    destruct (walk j k1 rest) as [[[l2 t2] r2]|] eqn:E; try done; simplify_eq.
  - rewrite cat_l_cons, cat_l_nil, !app_length. cbn [length]. lia.
  - destruct (walk i k1 rest) as [[[l3 t3] r3]|] eqn:E3; [|done]. simplify_eq. pose proof (IH j k1 rest _ _ _ _ _ _ E3 E ltac:(lia)). rewrite !cat_l_cons, !app_length. cbn. lia.
Qed.
Lemma descend_le (p q : list K -> nat * bool) h : (forall ks, fst (p ks) <= fst (q ks) <= length ks) -> forall t ps, wf kN h t ->
  exists c d : cursor V, descend key h false p t ps = Ok (c, false) /\ descend key h false q t ps = Ok (d, false) /\ length (before (c_path c)) <= length (before (c_path d)).
Proof.
  intros Hpq. induction h as [|h IH]; intros [|a k0 rest] ps Hw; try done. { exists (mkCur ps Nil), (mkCur ps Nil). auto. }
  cbn [descend]. specialize (Hpq (map (fun x => key (fst x)) rest)) as Hi. destruct (p _) as [i e]. destruct (q (map _ _)) as [j e']. cbn [fst] in Hi. rewrite map_length in Hi.
  assert (Hq : forall ks, fst (q ks) <= length ks) by (intros ks; apply Hpq). assert (Hp : forall ks, fst (p ks) <= length ks) by (intros ks; specialize (Hpq ks); lia).
  destruct (child_at_spec i a k0 rest ltac:(lia)) as (f & t1 & E1 & Hcl & _). destruct (child_at_spec j a k0 rest ltac:(lia)) as (g & t2 & E2 & Hcl2 & _). rewrite E1, E2. cbn [rbind andb].
  pose proof Hw as Hw1. rewrite <- Hcl in Hw1. apply wf_close in Hw1 as (_ & Hw1 & _). pose proof Hw as Hw2. rewrite <- Hcl2 in Hw2. apply wf_close in Hw2 as (_ & Hw2 & _).
  assert (i = j \/ i < j) as [->|Hij] by lia. { rewrite E1 in E2. simplify_eq. by apply IH. }
  destruct (descend_in p h t1 (f :: ps) Hw1 Hp) as (c & -> & _ & _ & Hc). destruct (descend_in q h t2 (g :: ps) Hw2 Hq) as (d & -> & _ & _ & Hd). exists c, d. split; [done|]. split; [done|].
  cbn in E1, E2. destruct (walk i k0 rest) as [[[l1 ?] r1]|] eqn:W1; [|done]. destruct (walk j k0 rest) as [[[l2 ?] r2]|] eqn:W2; [|done]. simplify_eq.
  pose proof (walk_before i j k0 rest _ _ _ _ _ _ W1 W2 Hij). cbn [before f_l] in Hc, Hd. rewrite !app_length in Hc, Hd. lia.
Qed.
Lemma bounds_le b l k : any b l -> exists ol ou i j, internal_lower_bound key lt m b k = Ok ol /\ internal_upper_bound key lt m b k = Ok ou /\ i <= j <= length l /\
  match ol with Some c => it (b_root b) i c /\ i < length l | None => i = length l end /\ match ou with Some d => it (b_root b) j d /\ j < length l | None => j = length l end.
Proof.
  intros Hb. pose proof Hb as ((h & Hw & _) & _). unfold internal_lower_bound, internal_upper_bound. rewrite (wf_height kN _ _ Hw).
  destruct (descend_le (node_lower lt m k) (node_upper lt m k) h (node_le k) (b_root b) [] Hw) as (c & d & Ec & Ed & Hle).
  destruct (descend_in (node_lower lt m k) h (b_root b) [] Hw) as (c' & Ec' & Hr & Hs & _). { intros ks. pose proof (node_le k ks). lia. }
  destruct (descend_in (node_upper lt m k) h (b_root b) [] Hw) as (d' & Ed' & Hr' & Hs' & _). { intros ks. pose proof (node_le k ks). lia. }
  rewrite Ec in Ec'. rewrite Ed in Ed'. simplify_eq. rewrite Ec, Ed. cbn [rbind]. eexists _, _, (length (lefts c')), (length (lefts d')). split; [done|]. split; [done|].
  pose proof (lefts_bound key kN b l c' Hb Hr). pose proof (lefts_bound key kN b l d' Hb Hr'). pose proof (climb_result b c' Hr) as Hcl. pose proof (climb_result b d' Hr') as Hdl.
  assert (length (lefts c') <= length (lefts d')) by (unfold lefts; rewrite Hs, Hs', !app_length; lia). split; [lia|]. split.
  - destruct (internal_last c'); [destruct Hcl as [? Hne]; split; [done|]; destruct (rights c'); [done|cbn in *; lia]|]. rewrite Hcl in *. cbn in *. lia.
  - destruct (internal_last d'); [destruct Hdl as [? Hne]; split; [done|]; destruct (rights d'); [done|cbn in *; lia]|]. rewrite Hdl in *. cbn in *. lia.
Qed.
Lemma runs_post {A} (c : M A) x y : runs c (Ok x) y -> post True c (eq x).
Proof. intros (cost & _ & H) n. rewrite H. unfold after_cost. by destruct (n <? cost). Qed.
Lemma call_asym b l o n : any b l -> walks (multi m) o = true -> done_with b l o (call_c key (fun _ => lt) kN m b o n).
Proof.
  intros Hb Hw. pose proof (proj1 Hb) as Hs. destruct o; try done; cbn [walks] in Hw; cbn [call_c]; rewrite Hw; (apply (catch_same b l); [done|done|]); destruct (bounds_le b l k Hb) as (ol & ou & i & j & El & Eu & Hij & Hl & Hu);
    pose proof (internal_lower_c_runs key lt kN m HkN b k Hs) as Rl; pose proof (internal_upper_c_runs key lt kN m HkN b k Hs) as Ru; rewrite El in Rl; rewrite Eu in Ru;
    destruct (internal_end_spec key flat kN flat_mode b l ou j Hb Hu) as (d & Ed & Hd); destruct (internal_end_spec key flat kN flat_mode b l ol i Hb Hl) as (c & Ec & Hc).
  - unfold erase_multi_c. apply (post_bind _ _ _ (fun x => exists l', any (fst x) l' /\ any_step key (multi m) l (EraseKey k) l' (RNum (snd x)))); [eapply post_bind; [by eapply runs_post|]|].
    2:{ intros [b' x] H. apply post_ret. exact H. }
    intros ? <-. destruct ol as [c1|]; cbn [internal_end] in Ec.
    + simplify_eq. unfold upper_bound_c. eapply post_bind; [eapply post_bind; [by eapply runs_post|]; intros ? <-; eapply post_lift; [exact Ed|exact (eq_refl d)]|]. intros ? <-.
      destruct (erase_range_spec key flat kN flat_mode HkN b l i j c d Hb Hc Hd ltac:(lia)) as (b' & c' & E & Hb' & _). eapply post_lift; [rewrite E; done|]. cbn [fst snd]. eexists. split; [done|].
      exists i, (j - i). split; [lia|]. split; [done|]. split; [done|]. by rewrite Hw.
    + apply post_ret. cbn [fst snd]. exists l. split; [done|]. exists 0, 0. split; [lia|]. unfold remove_at. cbn. split; [done|]. split; [done|]. lia.
  - unfold count_multi_c, lower_bound_c, upper_bound_c. apply (post_bind _ _ _ (fun x => exists l', any b l' /\ any_step key (multi m) l (Count k) l' (RNum x))); [|intros x Hx; apply post_ret; exact Hx].
    eapply post_bind; [eapply post_bind; [by eapply runs_post|]; intros ? <-; eapply post_lift; [exact Ec|exact (eq_refl c)]|]. intros ? <-.
    eapply post_bind; [eapply post_bind; [by eapply runs_post|]; intros ? <-; eapply post_lift; [exact Ed|exact (eq_refl d)]|]. intros ? <-.
    eapply post_lift. { eapply (distance_spec kN HkN b i j c d); [done|done|done|lia|]. rewrite (repr_size key flat kN flat_mode b l Hb). lia. }
    exists l. split; [done|]. split; [done|]. exists (j - i). split; [lia|]. split; [done|]. by rewrite Hw.
Qed.
End Props.

Section Theorems.
Context {V K : Type} (key : V -> K) (kN : nat) (m : mode).
Context (HkN : 3 <= kN).
Implicit Types (b : btree V) (l : list V).
Notation any := (repr key (@flat K) kN flat_mode).
Lemma any_run_spec p : forall b l, any b l -> any_safe key m l p -> exists b' xs l', any_run key kN m b p = Some (b', xs) /\ any_steps key m l p l' xs /\ any b' l'.
Proof.
  induction p as [|a p IH]; intros b l Hb Hs; cbn [any_run any_steps]; [by exists b, [], l|]. destruct Hs as (Hp & Hw & Hs).
  assert (done_with key kN m b l (a_op a) (call_c key (a_lt a) kN m b (a_op a) (a_calls a))) as H.
  { destruct (walks (multi m) (a_op a)) eqn:E; [|by apply call_any]. destruct Hw as [?|(lt & Ha & ->)]; [done|]. by apply call_asym. }
  unfold acall_run. destruct (call_c _ _ _ _ _ _ _) as [b' r n'|b'|]; [| |done].
  - destruct H as (l1 & Hb1 & H1). destruct (IH b' l1 Hb1 (Hs l1 (Returned r) H1)) as (b2 & xs & l2 & -> & H2 & Hb2). exists b2, (Returned r :: xs), l2. split; [done|]. split; [|done]. by exists l1.
  - destruct H as (l1 & Hb1 & H1). destruct (IH b' l1 Hb1 (Hs l1 Threw H1)) as (b2 & xs & l2 & -> & H2 & Hb2). exists b2, (Threw :: xs), l2. split; [done|]. split; [|done]. by exists l1.
Qed.
Lemma any_values b l : any b l -> values b = Ok l /\ b_size b = length l.
Proof. intros Hb. split; [|exact (repr_size key flat kN flat_mode b l Hb)]. rewrite (values_spec key kN HkN b (proj1 Hb)). f_equal. apply Hb. Qed.

(** C71: a program that starts with an empty container, and whose calls meet arbitrary comparators, never does anything undefined: each of
    its calls inserts the value it is given or nothing, removes values or nothing, and a call whose comparator throws changes nothing *)
Theorem C71_any_comparator : forall p : list (acall (V := V) (K := K)), any_safe key m [] p ->
  exists b xs l, any_run key kN m new_btree p = Some (b, xs) /\ any_steps key m [] p l xs /\ values b = Ok l /\ b_size b = length l.
Proof.
  intros p Hs. destruct (any_run_spec p new_btree [] (repr_new key flat kN flat_mode HkN) Hs) as (b & xs & l & H1 & H2 & H3). exists b, xs, l. split; [done|]. split; [done|]. by apply any_values.
Qed.
(** the range of a key is a range, for an asymmetric comparator *)
Theorem C71_range_ordered : forall (p : list (acall (V := V) (K := K))) b xs l (lt : K -> K -> bool) k, any_safe key m [] p -> any_run key kN m new_btree p = Some (b, xs) -> values b = Ok l ->
  asym lt -> exists i j, call key lt kN m b (EqualRange k) = Ok (b, RPair i j) /\ i <= j <= length l.
Proof.
  intros p b xs l lt k Hs Hr Hv Ha. destruct (any_run_spec p new_btree [] (repr_new key flat kN flat_mode HkN) Hs) as (b' & xs' & l' & H1 & _ & Hb). rewrite H1 in Hr. simplify_eq.
  destruct (any_values b l' Hb) as [Hv' _]. rewrite Hv' in Hv. simplify_eq. destruct (bounds_le key kN m HkN lt Ha b l k Hb) as (ol & ou & i & j & El & Eu & Hij & Hl & Hu). exists i, j. split; [|done].
  destruct (internal_end_spec key flat kN flat_mode b l ou j Hb Hu) as (d & Ed & Hd). destruct (internal_end_spec key flat kN flat_mode b l ol i Hb Hl) as (c & Ec & Hc).
  cbn [call]. unfold lower_bound, upper_bound. rewrite El. cbn [rbind]. rewrite Ec. cbn [rbind]. rewrite Eu. cbn [rbind]. rewrite Ed. cbn [rbind].
  rewrite (index_of_spec key flat kN flat_mode HkN b l i c Hb Hc). cbn [rbind]. by rewrite (index_of_spec key flat kN flat_mode HkN b l j d Hb Hd).
Qed.
End Theorems.

(** ** Findings *)
Notation always lt := (fun _ : nat => lt) (only parsing).
Definition with_lt {K} (lt : K -> K -> bool) (o : op K K) : acall (V := K) (K := K) := mkACall o (always lt) 100.
(* x <= y as the comparator of a multiset: after a few insertions, count() and erase(key) walk from the lower bound over the end *)
Theorem C71_less_equal_refuted : exists p b xs k, any_safe (fun x : nat => x) multi_mode [] p /\ (forall a, In a p -> a_lt a = always Nat.leb) /\
  any_run (fun x : nat => x) 3 multi_mode new_btree p = Some (b, xs) /\ values b = Ok [1; 2; 3] /\
  (forall n, 10 <= n -> call_c (fun x : nat => x) (always Nat.leb) 3 multi_mode b (Count k) n = CBad /\ call_c (fun x : nat => x) (always Nat.leb) 3 multi_mode b (EraseKey k) n = CBad).
Proof.
  exists (map (fun v => with_lt Nat.leb (Insert v)) [1; 2; 3]). eexists _, _, 2. split; [cbn; tauto|]. split; [cbn; intros a; intuition (by subst)|]. split; [vm_compute; reflexivity|]. split; [vm_compute; reflexivity|].
  intros n Hn. do 10 (destruct n as [|n]; [lia|]). clear. split; vm_compute; reflexivity.
Qed.

(* floating-point numbers with their <: None is a NaN *)
Definition flt (x y : option nat) : bool := match x, y with Some a, Some b => a <? b | _, _ => false end.
Lemma flt_asym : asym flt.
Proof. intros [a|] [b|]; unfold flt; intros H; try done. lia. Qed.
(* a set that holds a NaN takes no other number, and says that it contains every number *)
Theorem C71_nan_set_refuted : exists b xs, any_run (fun x : option nat => x) 3 set_mode new_btree (map (with_lt flt) [Insert None; Insert (Some 5); Contains (Some 5); Contains (Some 7); Forward]) = Some (b, xs) /\
  xs = map Returned [RPos 0 true; RPos 0 false; RBool true; RBool true; RList [None]].
Proof. eexists _, _. split; vm_compute; reflexivity. Qed.
(* a multiset that holds a NaN.  Searched linearly, as multisets of doubles are: erase(9) erases the NaN and 7 as well.  Searched by halves:
   3 is inserted after 5, is not found, and erase(3) erases 5 as well *)
Theorem C71_nan_erase_refuted : exists b xs b' xs',
  any_run (fun x : option nat => x) 7 (mkMode false true true) new_btree (map (with_lt flt) (map Insert [Some 5; None; Some 3; Some 9; Some 7] ++ [EraseKey (Some 9); Forward])) = Some (b, xs) /\
  drop 5 xs = map Returned [RNum 3; RList [Some 3; Some 5]] /\
  any_run (fun x : option nat => x) 7 (mkMode false false true) new_btree (map (with_lt flt) (map Insert [Some 5; None; Some 3; Some 9; Some 7] ++ [Contains (Some 3); EraseKey (Some 3); Forward])) = Some (b', xs') /\
  drop 5 xs' = map Returned [RBool false; RNum 3; RList [Some 7; Some 9]].
Proof. eexists _, _, _, _. split; [vm_compute; reflexivity|]. split; [vm_compute; reflexivity|]. split; vm_compute; reflexivity. Qed.
(* a map: m[NaN] = x changes the value of another key *)
Theorem C71_nan_subscript_refuted : exists b, mrun flt 3 set_mode 0 new_btree [MSet (Some 1) 10; MSet None 20; MGet (Some 1)] = Ok (b, [MUnit; MUnit; MVal 20]).
Proof. eexists. vm_compute. reflexivity. Qed.

(** ** Cases *)
(* a comparator that changes its mind at every call *)
Definition moody (i x y : nat) : bool := Nat.odd (i + x * y).
Definition moody_program : list (acall (V := nat) (K := nat)) :=
  map (fun o => mkACall o moody 60) (map Insert [4; 1; 7; 3; 9; 4; 2; 8; 5; 6]) ++ [mkACall (InsertRange [1; 2; 3]) moody 4; mkACall (EraseKey 7) moody 60; mkACall (ExtractKey 3) moody 60; mkACall (Find 5) moody 1; mkACall Forward moody 0].
Lemma any_safe_simple {V K} (key : V -> K) m (p : list (acall (V := V) (K := K))) : forall l,
  Forall (fun a => (forall l, pre key l (a_op a)) /\ (walks (multi m) (a_op a) = false \/ exists lt, asym lt /\ a_lt a = fun _ => lt)) p -> any_safe key m l p.
Proof. induction p as [|a p IH]; intros l H; [done|]. apply Forall_cons in H as [[H1 H2] H]. cbn. auto. Qed.
Example C71_any_comparator_case : any_safe (fun x : nat => x) set_mode [] moody_program /\
  exists b xs l, any_run (fun x : nat => x) 3 set_mode new_btree moody_program = Some (b, xs) /\ values b = Ok l /\ 5 <= length l /\ In Threw xs.
Proof.
  split. { apply any_safe_simple. unfold moody_program. repeat (apply List.Forall_cons; [split; [done|by left]|]). constructor. }
  eexists _, _, _. split; [vm_compute; reflexivity|]. split; [vm_compute; reflexivity|]. split; [vm_compute; lia|]. vm_compute. tauto.
Qed.
Example C71_nan_case : any_safe (fun x : option nat => x) multi_mode [] (map (with_lt flt) [InsertRange [Some 5; None; Some 3; Some 9; Some 7]; EraseKey (Some 9); Count None]) /\
  exists b xs, any_run (fun x : option nat => x) 3 multi_mode new_btree (map (with_lt flt) [InsertRange [Some 5; None; Some 3; Some 9; Some 7]; EraseKey (Some 9); Count None]) = Some (b, xs) /\
    xs = map Returned [RUnit; RNum 1; RNum 4].
Proof.
  split. { apply any_safe_simple. cbn [map]. apply List.Forall_cons; [split; [done|by left]|]. repeat (apply List.Forall_cons; [split; [done|right; exists flt; split; [apply flt_asym|done]]|]). constructor. }
  eexists _, _. split; vm_compute; reflexivity.
Qed.
Example C71_range_ordered_case : let p := map (with_lt flt) (map Insert [Some 5; None; Some 3; Some 9; Some 7]) in let m := mkMode false true true in
  any_safe (fun x : option nat => x) m [] p /\ asym flt /\
  exists b xs l, any_run (fun x : option nat => x) 7 m new_btree p = Some (b, xs) /\ values b = Ok l /\ call (fun x : option nat => x) flt 7 m b (EqualRange (Some 9)) = Ok (b, RPair 2 5).
Proof.
  split. { apply any_safe_simple. cbn [map]. repeat (apply List.Forall_cons; [split; [done|by left]|]). constructor. }
  split; [apply flt_asym|]. eexists _, _, _. split; [vm_compute; reflexivity|]. split; vm_compute; reflexivity.
Qed.
Print Assumptions C71_any_comparator. Print Assumptions C71_range_ordered. Print Assumptions C71_less_equal_refuted.
Print Assumptions C71_nan_set_refuted. Print Assumptions C71_nan_erase_refuted. Print Assumptions C71_nan_subscript_refuted.
