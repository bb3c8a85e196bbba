(** C78: several B-tree containers when the comparators are not orders: no value is lost, none is doubled. *)
From stdpp Require Import list sorting.
From Coq Require Import Arith Lia ZifyBool ZifyNat Sorting.Sorted.
From Verif.Common Require Import Res.
From Verif.BTree Require Import Tree TreeFacts Balance Search Spec SearchFacts Ops Iter OpsFacts SpecFacts Refine Refine2 Api ApiSpec ApiFacts Compare CompareFacts AnyFacts PropsBTree PropsCompare PropsAny AnyMulti.
Local Open Scope nat_scope.
Local Open Scope res_scope.

(** ** Specification: several sequences of values and a handle *)
Section Spec.
Context {V K : Type} (key : V -> K) (mo : nat -> mode).
Implicit Types (l s : list V) (ls : list (list V)).
(* l.merge(s) leaves l' and s'.  Sets: of the first n values of s (all of them if nothing is thrown), those in r stay, the others are now somewhere
   between the values of l; the rest of s stays.  Multisets: all values move, and the source is empty; if the comparator threw, n values moved, and
   what a move leaves of them is still in s *)
Definition merged (multi : bool) (moved : V -> V) l s l' s' (x : answer V) : Prop :=
  (s <> [] -> l' <> []) /\
  exists n, match x with Returned r => r = RUnit /\ n = length s | Threw => n < length s end /\
  if multi then adds true l (take n s) l' /\ s' = match x with Returned _ => [] | Threw => map moved (take n s) ++ drop n s end
  else exists r new, sublist r (take n s) /\ sublist new (take n s) /\ s' = r ++ drop n s /\ r ++ new ≡ₚ take n s /\ sublist l l' /\ l' ≡ₚ l ++ new.
(* the node goes into l or stays in the handle *)
Definition given (multi : bool) l (h : option V) l' (h' : option V) (x : answer V) : Prop :=
  match h with
  | None => l' = l /\ h' = None /\ x = Returned (RPos (length l) false)
  | Some v => (exists q, q <= length l /\ l' = insert_at q v l /\ h' = None /\ x = Returned (RPos q true)) \/
              (l' = l /\ h' = Some v /\ ((multi = false /\ exists q, q < length l /\ x = Returned (RPos q false)) \/ x = Threw /\ l <> []))
  end.
Definition legal ls (h : option V) (x : instr (V := V) (K := K)) ls' (h' : option V) (r : answer V) : Prop :=
  match x with
  | On i a => exists l l', ls !! i = Some l /\ answers key (multi (mo i)) l (a_op a) l' r /\ ls' = <[i:=l']> ls /\ h' = h
  | Merge i j _ _ moved => exists l s l' s', ls !! i = Some l /\ ls !! j = Some s /\ merged (multi (mo i)) moved l s l' s' r /\ ls' = <[j:=s']> (<[i:=l']> ls) /\ h' = h
  | Swap i j => exists l s, ls !! i = Some l /\ ls !! j = Some s /\ ls' = <[j:=l]> (<[i:=s]> ls) /\ h' = h /\ r = Returned RUnit
  | CopyAssign i j => exists s, ls !! j = Some s /\ ls' = <[i:=s]> ls /\ h' = h /\ r = Returned RUnit
  | MoveAssign i j equal moved => exists s, ls !! j = Some s /\ h' = h /\ r = Returned RUnit /\
      ls' = if i =? j then ls else <[j:=if equal then [] else map moved s]> (<[i:=s]> ls)
  | Take i p => exists l v, ls !! i = Some l /\ l !! p = Some v /\ ls' = <[i:=remove_at p 1 l]> ls /\ h' = Some v /\ r = Returned (ROpt (Some v))
  | Put i _ _ | PutHint i _ _ _ => exists l l', ls !! i = Some l /\ given (multi (mo i)) l h l' h' r /\ ls' = <[i:=l']> ls
  end.
Fixpoint legal_all ls (h : option V) (p : list (instr (V := V) (K := K))) ls' (h' : option V) (rs : list (answer V)) : Prop :=
  match p, rs with
  | [], [] => ls' = ls /\ h' = h
  | x :: p', r :: rs' => exists ls1 h1, legal ls h x ls1 h1 r /\ legal_all ls1 h1 p' ls' h' rs'
  | _, _ => False
  end.
(* the variables and positions that the program names exist, the types agree, a container is not merged with itself, a handle is not overwritten *)
Definition allowed ls (h : option V) (x : instr (V := V) (K := K)) : Prop :=
  match x with
  | On i a => exists l, ls !! i = Some l /\ pre key l (a_op a) /\ (walks (multi (mo i)) (a_op a) = false \/ exists lt, asym lt /\ a_lt a = fun _ => lt)
  | Merge i j _ _ _ => i <> j /\ i < length ls /\ j < length ls
  | Swap i j | CopyAssign i j | MoveAssign i j _ _ => i < length ls /\ j < length ls /\ mo i = mo j
  | Take i p => h = None /\ exists l, ls !! i = Some l /\ p < length l
  | Put i _ _ => i < length ls
  | PutHint i p _ _ => exists l, ls !! i = Some l /\ p <= length l
  end.
Fixpoint safe ls (h : option V) (p : list (instr (V := V) (K := K))) : Prop :=
  match p with [] => True | x :: p' => allowed ls h x /\ forall ls' h' r, legal ls h x ls' h' r -> safe ls' h' p' end.
(* the calls that only move values between the containers and the handle *)
Definition moves (x : instr (V := V) (K := K)) (r : answer V) : Prop :=
  match x with
  | On _ a => match a_op a with Find _ | LowerBound _ | UpperBound _ | Contains _ | Count _ | EqualRange _ => True | _ => False end
  | Merge i _ _ _ _ => multi (mo i) = true -> r <> Threw
  | Swap _ _ | Take _ _ | Put _ _ _ | PutHint _ _ _ _ => True
  | CopyAssign _ _ | MoveAssign _ _ _ _ => False
  end.
End Spec.

Section Props.
Context {V K : Type} (key : V -> K) (kN : nat).
Context (HkN : 3 <= kN).
Implicit Types (b src : btree V) (v : V) (l s : list V) (m : mode).
Notation any := (repr key (@flat K) kN flat_mode).

(** ** merge of sets and maps *)
Lemma merge_unique_any lt m fuel : multi m = false -> forall b l src s i c n, any b l -> any src s -> it (b_root src) i c -> length s - i <= fuel ->
  match merge_loop_c key lt kN m fuel b src c n with
  | MRet b' src' _ => exists l' r new, any b' l' /\ any src' (take i s ++ r) /\ sublist r (drop i s) /\ sublist new (drop i s) /\ r ++ new ≡ₚ drop i s /\ sublist l l' /\ l' ≡ₚ l ++ new /\ (i < length s -> l' <> [])
  | MThrow b' src' => exists j l' r new, i <= j < length s /\ any b' l' /\ any src' (take i s ++ r ++ drop j s) /\ sublist r (take (j - i) (drop i s)) /\ sublist new (take (j - i) (drop i s)) /\
      r ++ new ≡ₚ take (j - i) (drop i s) /\ sublist l l' /\ l' ≡ₚ l ++ new /\ l' <> []
  | MBad => False
  end.
Proof.
  intros Hmu. induction fuel as [|fuel IH]; intros b l src s i c n Hb Hs Hc Hf; cbn [merge_loop_c]; destruct (end_it key flat kN flat_mode src s Hs) as (e & -> & He); cbn [mcatch];
    rewrite (same_r key flat kN flat_mode src s _ _ c e Hs Hc He); pose proof (it_bound key flat kN flat_mode src s i c Hs Hc) as Hle.
  - replace (i =? length s) with true by lia. exists l, [], []. rewrite drop_ge by lia. rewrite !app_nil_r, take_ge by lia. split_and!; auto; lia.
  - destruct (i =? length s) eqn:E. { exists l, [], []. rewrite drop_ge by lia. rewrite !app_nil_r, take_ge by lia. split_and!; auto; lia. }
    destruct (value_it key flat kN flat_mode src s i c Hs Hc) as (v & Hv & ->); [lia|]. cbn [mcatch].
    pose proof (insert_unique_post key kN HkN lt m b l v Hb n) as Hp. destruct (insert_unique_c key lt kN m b v n) as [[[[b' c'] ins] n']| | | |]; cbn [mcatch]; try done.
    2:{ rewrite (with_root_any key kN b l Hb Hp). exists i, l, [], []. rewrite Nat.sub_diag, take_0, !app_nil_r. cbn [app]. rewrite take_drop. split_and!; auto; lia. }
    destruct ins; cbn [added] in Hp.
    + destruct Hp as (q & Hq & Hb' & _). destruct (erase_it key flat kN flat_mode HkN src s i c Hs Hc ltac:(lia)) as (s1 & c1 & -> & Hs1 & Hc1). cbn [mcatch].
      assert (Hd1 : drop i (remove_at i 1 s) = drop (S i) s). { unfold remove_at. rewrite drop_app_alt by (rewrite take_length; lia). f_equal. lia. }
      assert (Ht1 : take i (remove_at i 1 s) = take i s). { unfold remove_at. rewrite take_app_alt by (rewrite take_length; lia). done. }
      assert (Hl1 : length (remove_at i 1 s) = length s - 1). { unfold remove_at. rewrite app_length, take_length, drop_length. lia. }
      assert (Hne : forall l', sublist (insert_at q v l) l' -> l' <> []). { intros l' Hl ->. apply sublist_length in Hl. unfold insert_at in Hl. rewrite app_length in Hl. cbn in Hl. lia. }
      assert (Hsn : forall l', sublist (insert_at q v l) l' -> sublist l l'). { intros l' Hl. etrans; [apply insert_at_sublist|exact Hl]. }
      specialize (IH b' _ s1 _ i c1 n' Hb' Hs1 Hc1 ltac:(lia)). rewrite (drop_S _ v _ Hv). destruct (merge_loop_c key lt kN m fuel b' s1 c1 n') as [b2 s2 n2|b2 s2|]; [| |done].
      * destruct IH as (l' & r & new & H1 & H2 & H3 & H4 & H5 & H6 & H7 & H8). rewrite Hd1 in *. rewrite Ht1 in *. exists l', r, (v :: new). split_and!; auto.
        -- by constructor.
        -- by constructor.
        -- rewrite <- Permutation_middle. by rewrite H5.
        -- rewrite H7, insert_at_perm. cbn. apply Permutation_middle.
      * destruct IH as (j & l' & r & new & H0 & H1 & H2 & H3 & H4 & H5 & H6 & H7 & H8). rewrite Hl1 in H0. rewrite Hd1 in *. rewrite Ht1 in *. exists (S j), l', r, (v :: new). replace (S j - i) with (S (j - i)) by lia. cbn [take].
        assert (Hdj : drop j (remove_at i 1 s) = drop (S j) s). { unfold remove_at. rewrite drop_app_ge by (rewrite take_length; lia). rewrite drop_drop, take_length. f_equal. lia. }
        rewrite Hdj in H2. split_and!; auto; try lia.
        -- by constructor.
        -- by constructor.
        -- rewrite <- Permutation_middle. by rewrite H5.
        -- rewrite H7, insert_at_perm. cbn. apply Permutation_middle.
    + destruct Hp as (-> & q & Hq & _). destruct (next_r key flat kN flat_mode src s i c Hs Hc ltac:(lia)) as (c1 & -> & Hc1). cbn [mcatch].
      specialize (IH b l src s (S i) c1 n' Hb Hs Hc1 ltac:(lia)). rewrite (drop_S _ v _ Hv).
      assert (Hne : forall l', sublist l l' -> l' <> []). { intros l' Hl ->. apply sublist_length in Hl. cbn in Hl. lia. }
      assert (Htk : forall r, take (S i) s ++ r = take i s ++ v :: r). { intros r. by rewrite (take_S_r _ _ v Hv), <- app_assoc. }
      destruct (merge_loop_c key lt kN m fuel b src c1 n') as [b2 s2 n2|b2 s2|]; [| |done].
      * destruct IH as (l' & r & new & H1 & H2 & H3 & H4 & H5 & H6 & H7 & H8). rewrite Htk in H2. exists l', (v :: r), new. split_and!; auto.
        -- by constructor.
        -- by constructor.
        -- cbn. by rewrite H5.
      * destruct IH as (j & l' & r & new & H0 & H1 & H2 & H3 & H4 & H5 & H6 & H7 & H8). rewrite Htk in H2. exists j, l', (v :: r), new. replace (j - i) with (S (j - S i)) by lia. cbn [take]. split_and!; auto; try lia.
        -- by constructor.
        -- by constructor.
        -- cbn. by rewrite H5.
Qed.

(** ** merge of multisets and multimaps *)
Lemma assign_any src s i c v w : any src s -> it (b_root src) i c -> s !! i = Some w -> exists src' c', assign src c v = Ok (src', c') /\ any src' (<[i:=v]> s) /\ it (b_root src') i c'.
Proof.
  intros Hs Hc Hw. assert (Hs0 : repr (fun _ : V => tt) flat kN flat_mode src s) by (apply (any_intro (fun _ : V => tt) kN); apply Hs).
  destruct (assign_spec (fun _ : V => tt) flat kN flat_mode HkN src s i c v w Hs0 Hc Hw eq_refl) as (src' & c' & E & H1 & H2 & _). exists src', c'. split; [done|]. split; [|done]. apply (any_intro key kN); apply H1.
Qed.
Lemma merge_multi_any lt m moved fuel : multi m = true -> forall b l src s i c n, any b l -> any src s -> it (b_root src) i c -> length s - i <= fuel ->
  match merge_multi_loop_c key lt kN m moved fuel b src c n with
  | MRet b' src' _ => exists l', any b' l' /\ any src' [] /\ adds true l (drop i s) l'
  | MThrow b' src' => exists j l', i <= j < length s /\ any b' l' /\ any src' (take i s ++ map moved (take (j - i) (drop i s)) ++ drop j s) /\ adds true l (take (j - i) (drop i s)) l' /\ l' <> []
  | MBad => False
  end.
Proof.
  intros Hmu. induction fuel as [|fuel IH]; intros b l src s i c n Hb Hs Hc Hf; cbn [merge_multi_loop_c]; destruct (end_it key flat kN flat_mode src s Hs) as (e & -> & He); cbn [mcatch];
    rewrite (same_r key flat kN flat_mode src s _ _ c e Hs Hc He); pose proof (it_bound key flat kN flat_mode src s i c Hs Hc) as Hle.
  - replace (i =? length s) with true by lia. exists l. split; [done|]. split; [apply (repr_new key flat kN flat_mode HkN)|]. rewrite drop_ge by lia. exists []. by rewrite app_nil_r.
  - destruct (i =? length s) eqn:E. { exists l. split; [done|]. split; [apply (repr_new key flat kN flat_mode HkN)|]. rewrite drop_ge by lia. exists []. by rewrite app_nil_r. }
    destruct (value_it key flat kN flat_mode src s i c Hs Hc) as (v & Hv & ->); [lia|]. cbn [mcatch].
    assert (post (l <> []) (let! h := lift (end_ b) in insert_hint_multi_c key lt kN m b h v) (fun '(b', c') => added key kN b l v (b', c', true))) as Hp.
    { destruct (end_it key flat kN flat_mode b l Hb) as (h & Eh & Hh). eapply post_then; [exact Eh|]. by eapply insert_hint_multi_post. }
    specialize (Hp n). destruct ((let! h := lift (end_ b) in insert_hint_multi_c key lt kN m b h v) n) as [[[b' c'] n']| | | |]; cbn [mcatch]; try done.
    2:{ rewrite (with_root_any key kN b l Hb Hp). exists i, l. rewrite Nat.sub_diag, take_0. cbn [app map]. rewrite take_drop. split; [lia|]. split; [done|]. split; [done|]. split; [|done]. exists []. by rewrite app_nil_r. }
    cbn [added] in Hp. destruct Hp as (q & Hq & Hb' & _). destruct (assign_any src s i c (moved v) v Hs Hc Hv) as (s1 & c1 & -> & Hs1 & Hc1). cbn [mcatch].
    destruct (next_r key flat kN flat_mode s1 _ i c1 Hs1 Hc1 ltac:(rewrite insert_length; lia)) as (c2 & -> & Hc2). cbn [mcatch].
    specialize (IH b' _ s1 _ (S i) c2 n' Hb' Hs1 Hc2 ltac:(rewrite insert_length; lia)). rewrite drop_insert_gt, insert_length in IH by lia. rewrite (drop_S _ v _ Hv).
    assert (Hadd : forall vs l', adds true (insert_at q v l) vs l' -> adds true l (v :: vs) l').
    { intros vs l' H. apply (adds_one (mkMode true true true) l vs (insert_at q v l) v l' H). eauto. }
    destruct (merge_multi_loop_c key lt kN m moved fuel b' s1 c2 n') as [b2 s2 n2|b2 s2|]; [| |done].
    + destruct IH as (l' & H1 & H2 & H3). exists l'. auto.
    + destruct IH as (j & l' & H0 & H1 & H2 & H3 & H4). exists j, l'. replace (j - i) with (S (j - S i)) by lia. cbn [take map]. split; [lia|]. split; [done|]. split; [|auto].
      rewrite drop_insert_gt in H2 by lia. rewrite (take_S_r (<[i:=moved v]> s) i (moved v)) in H2 by (apply list_lookup_insert; lia). rewrite take_insert in H2 by lia. rewrite <- app_assoc in H2. exact H2.
Qed.
Lemma adds_full l vs l' : adds true l vs l' -> sublist l l' /\ l' ≡ₚ l ++ vs.
Proof. intros (new & _ & H & H1 & H2). by rewrite (H eq_refl) in H2. Qed.
Lemma merge_any lt m moved b l src s n : any b l -> any src s ->
  match (if multi m then merge_multi_c key lt kN m moved b src n else merge_unique_c key lt kN m b src n) with
  | MRet b' src' _ => exists l' s', any b' l' /\ any src' s' /\ merged (multi m) moved l s l' s' (Returned RUnit)
  | MThrow b' src' => exists l' s', any b' l' /\ any src' s' /\ merged (multi m) moved l s l' s' Threw
  | MBad => False
  end.
Proof.
  intros Hb Hs. pose proof (repr_size key flat kN flat_mode src s Hs) as Hsz. destruct (begin_it key flat kN flat_mode src s Hs) as (c & Ec & Hc). destruct (multi m) eqn:Hmu.
  - unfold merge_multi_c. rewrite Ec. cbn [mcatch]. pose proof (merge_multi_any lt m moved (b_size src) Hmu b l src s 0 c n Hb Hs Hc ltac:(lia)) as H.
    destruct (merge_multi_loop_c _ _ _ _ _ _ _ _ _ _) as [b' s' n'|b' s'|]; [| |done].
    + destruct H as (l' & H1 & H2 & H3). exists l', []. split; [done|]. split; [done|]. split.
      { intros Hne ->. destruct (adds_full _ _ _ H3) as [_ Hp]. apply Permutation_nil_l in Hp. rewrite drop_0 in Hp. by destruct l, s. }
      exists (length s). split; [done|]. rewrite take_ge by lia. by rewrite drop_0 in H3.
    + destruct H as (j & l' & H0 & H1 & H2 & H3 & H4). rewrite Nat.sub_0_r in *. cbn [take app] in H2. rewrite drop_0 in *. exists l'. eexists. split; [done|]. split; [exact H2|]. split; [done|]. exists j. split; [lia|done].
  - unfold merge_unique_c. rewrite Ec. cbn [mcatch]. pose proof (merge_unique_any lt m (b_size src) Hmu b l src s 0 c n Hb Hs Hc ltac:(lia)) as H.
    destruct (merge_loop_c _ _ _ _ _ _ _ _ _) as [b' s' n'|b' s'|]; [| |done].
    + destruct H as (l' & r & new & H1 & H2 & H3 & H4 & H5 & H6 & H7 & H8). cbn [take app] in H2. rewrite drop_0 in *. exists l', r. split; [done|]. split; [done|]. split; [intros Hne; apply H8; destruct s; [done|cbn; lia]|].
      exists (length s). split; [done|]. exists r, new. rewrite take_ge, drop_ge by lia. rewrite app_nil_r. split_and!; auto.
    + destruct H as (j & l' & r & new & H0 & H1 & H2 & H3 & H4 & H5 & H6 & H7 & H8). rewrite Nat.sub_0_r in *. cbn [take app] in H2. rewrite drop_0 in *. exists l'. eexists. split; [done|]. split; [exact H2|].
      split; [done|]. exists j. split; [lia|]. exists r, new. split_and!; auto.
Qed.

(** ** assignments *)
Lemma move_each_any m moved fuel : forall b l src s i c, any b l -> any src s -> it (b_root src) i c -> length s - i <= fuel ->
  exists b' src', move_each key kN m moved fuel b src c = Ok (b', src') /\ any b' (l ++ drop i s) /\ any src' (take i s ++ map moved (drop i s)).
Proof.
  induction fuel as [|fuel IH]; intros b l src s i c Hb Hs Hc Hf; cbn [move_each]; destruct (end_it key flat kN flat_mode src s Hs) as (e & -> & He); cbn [rbind];
    rewrite (same_r key flat kN flat_mode src s _ _ c e Hs Hc He); pose proof (it_bound key flat kN flat_mode src s i c Hs Hc) as Hle.
  - replace (i =? length s) with true by lia. exists b, src. rewrite drop_ge, take_ge by lia. cbn [map]. by rewrite !app_nil_r.
  - destruct (i =? length s) eqn:E. { exists b, src. rewrite drop_ge, take_ge by lia. cbn [map]. by rewrite !app_nil_r. }
    destruct (value_it key flat kN flat_mode src s i c Hs Hc) as (v & Hv & ->); [lia|]. cbn [rbind].
    assert (exists b' c', (if empty b then insert_multi key flat kN m b v else let* d := end_ b in internal_emplace kN b d v) = Ok (b', c') /\ any b' (l ++ [v])) as (b' & c' & -> & Hb').
    { rewrite (repr_empty key flat kN flat_mode b l Hb). destruct (length l =? 0) eqn:El.
      - destruct l; [|done]. assert (insert_multi key flat kN m b v = insert_multi key flat kN flat_mode b v) as ->.
        { unfold insert_multi, internal_upper_bound. rewrite fresh_root, (repr_empty key flat kN flat_mode b [] Hb). cbn. unfold node_upper. by destruct (linear m). }
        destruct (insert_multi_gen key flat kN flat_mode (flat_swo) HkN b [] v) as (b' & c' & -> & Hb' & _); [done|done|]. exists b', c'. split; [done|]. exact Hb'.
      - destruct (end_it key flat kN flat_mode b l Hb) as (d & -> & Hd). cbn [rbind]. destruct (emplace_any_it key kN HkN b l (length l) d v Hb) as (b' & c' & -> & Hb' & _); [by intros ->|done|]. exists b', c'. split; [done|].
        by rewrite (insert_end key kN HkN) in Hb'. }
    cbn [rbind]. destruct (assign_any src s i c (moved v) v Hs Hc Hv) as (s1 & c1 & -> & Hs1 & Hc1). cbn [rbind].
    destruct (next_r key flat kN flat_mode s1 _ i c1 Hs1 Hc1 ltac:(rewrite insert_length; lia)) as (c2 & -> & Hc2). cbn [rbind].
    destruct (IH b' _ s1 _ (S i) c2 Hb' Hs1 Hc2 ltac:(rewrite insert_length; lia)) as (b2 & s2 & -> & H1 & H2). exists b2, s2. split; [done|]. rewrite drop_insert_gt in H1, H2 by lia.
    rewrite (drop_S _ v _ Hv). split; [by rewrite <- app_assoc in H1|]. rewrite (take_S_r (<[i:=moved v]> s) i (moved v)) in H2 by (apply list_lookup_insert; lia). rewrite take_insert in H2 by lia.
    rewrite <- app_assoc in H2. exact H2.
Qed.
Lemma move_values_any m moved src s : any src s -> exists b' src', move_values key kN m moved src = Ok (b', src') /\ any b' s /\ any src' (map moved s).
Proof.
  intros Hs. unfold move_values. destruct (begin_it key flat kN flat_mode src s Hs) as (c & -> & Hc). cbn [rbind]. pose proof (repr_size key flat kN flat_mode src s Hs).
  destruct (move_each_any m moved (b_size src) clear [] src s 0 c (repr_new key flat kN flat_mode HkN) Hs Hc ltac:(lia)) as (b' & s' & E & H1 & H2). exists b', s'. split; [done|]. by rewrite drop_0 in H1, H2.
Qed.
Lemma copy_any m src s : any src s -> exists b', copy key flat kN m src = Ok b' /\ any b' s.
Proof.
  intros Hs. destruct (copy_spec key flat kN flat_mode flat_swo HkN src s Hs) as (b' & E & Hb'). exists b'. split; [|done]. rewrite <- E.
  pose proof (call_flat key kN m flat src CopyTo I) as H. cbn [call] in H. destruct (copy key flat kN m src), (copy key flat kN flat_mode src); cbn [rbind] in H; congruence.
Qed.

(** ** node handles *)
Lemma insert_node_post lt m b l p v : any b l -> match p with Some i => i <= length l | None => True end ->
  post (l <> []) (insert_node_c key kN lt m b p v) (fun '(b', c, ins) => added key kN b l v (b', c, ins) /\ (ins = false -> multi m = false)).
Proof.
  intros Hb Hp. unfold insert_node_c. destruct p as [p|].
  - destruct (at_index_spec key flat kN flat_mode HkN b l p Hb Hp) as (h & Eh & Hh). eapply post_then; [exact Eh|]. destruct (multi m) eqn:Em.
    + eapply post_bind; [by eapply (insert_hint_multi_post key kN HkN lt m b l)|]. intros [b' c'] H. apply post_ret. done.
    + eapply post_impl; [by eapply (insert_hint_unique_post key kN HkN lt m b l)|]. intros [[b' c'] ins] H. done.
  - destruct (multi m) eqn:Em.
    + eapply post_bind; [by eapply (insert_multi_post key kN HkN lt m b l)|]. intros [b' c'] H. apply post_ret. done.
    + eapply post_impl; [by eapply (insert_unique_post key kN HkN lt m b l)|]. intros [[b' c'] ins] H. done.
Qed.

(** ** one call *)
Context (mo : nat -> mode).
Notation legal := (legal key mo). Notation allowed := (allowed key mo). Notation exec := (exec key kN mo).
Definition holds (bs : list (btree V)) (ls : list (list V)) : Prop := Forall2 (fun b l => any b l) bs ls.
Lemma holds_at bs ls i : holds bs ls -> i < length ls -> exists b l, bs !! i = Some b /\ ls !! i = Some l /\ any b l.
Proof. intros H Hi. destruct (lookup_lt_is_Some_2 ls i Hi) as [l Hl]. destruct (Forall2_lookup_r _ _ _ _ _ H Hl) as (b & Hb & Ha). eauto. Qed.
Lemma holds_set bs ls i b l : holds bs ls -> any b l -> holds (<[i:=b]> bs) (<[i:=l]> ls).
Proof. intros H Hb. by apply Forall2_insert. Qed.
Lemma put_legal bs ls h i p lt n : holds bs ls -> i < length ls -> (forall l, ls !! i = Some l -> match p with Some q => q <= length l | None => True end) ->
  exists bs' h' r l l', put key kN mo (mkEnv bs h) i p lt n = Some (mkEnv bs' h', r) /\ ls !! i = Some l /\ given (multi (mo i)) l h l' h' r /\ holds bs' (<[i:=l']> ls).
Proof.
  intros H Hi Hp. destruct (holds_at bs ls i H Hi) as (b & l & Eb & El & Hb). specialize (Hp l El). unfold put. cbn [vars AnyMulti.hand]. rewrite Eb. destruct h as [v|].
  - pose proof (insert_node_post lt (mo i) b l p v Hb Hp n) as Hn. destruct (insert_node_c key kN lt (mo i) b p v n) as [[[[b' c] ins] n']| | | |]; try done.
    + destruct Hn as [Ha Hm]. cbn [added] in Ha. destruct ins.
      * destruct Ha as (q & Hq & Hb' & Hc). rewrite (index_of_spec key flat kN flat_mode HkN b' _ q c Hb' Hc). eexists _, _, _, l, _. split; [done|]. split; [done|]. split; [left; eauto|]. by apply holds_set.
      * destruct Ha as (-> & q & Hq & Hc). rewrite (index_of_spec key flat kN flat_mode HkN b _ q c Hb Hc). eexists _, _, _, l, l. split; [done|]. split; [done|]. split; [|by apply holds_set].
        right. split; [done|]. split; [done|]. left. split; [auto|]. eauto.
    + rewrite (with_root_any key kN b l Hb Hn). eexists _, _, _, l, l. split; [done|]. split; [done|]. split; [|by apply holds_set]. right. auto.
  - destruct (end_it key flat kN flat_mode b l Hb) as (e & -> & He). cbn [rbind]. rewrite (index_of_spec key flat kN flat_mode HkN b l _ e Hb He). eexists _, _, _, l, l. split; [done|]. split; [done|]. split; [done|].
    by rewrite list_insert_id.
Qed.
Lemma exec_legal bs ls h x : holds bs ls -> allowed ls h x -> exists bs' h' r ls', exec (mkEnv bs h) x = Some (mkEnv bs' h', r) /\ legal ls h x ls' h' r /\ holds bs' ls'.
Proof.
  intros H Ha. destruct x as [i a|i j lt n moved|i j|i j|i j eq moved|i p|i lt n|i p lt n]; cbn [AnyMulti.exec PropsAnyMulti.allowed PropsAnyMulti.legal vars AnyMulti.hand] in *.
  - destruct Ha as (l & El & Hp & Hw). destruct (Forall2_lookup_r _ _ _ _ _ H El) as (b & Eb & Hb). rewrite Eb.
    assert (done_with key kN (mo i) b l (a_op a) (call_c key (a_lt a) kN (mo i) b (a_op a) (a_calls a))) as Hd.
    { destruct (walks (multi (mo i)) (a_op a)) eqn:E; [|by apply call_any]. destruct Hw as [?|(lt & Hlt & ->)]; [done|]. by apply call_asym. }
    unfold acall_run. destruct (call_c _ _ _ _ _ _ _) as [b' r n'|b'|]; [| |done]; destruct Hd as (l1 & Hb1 & H1); eexists _, _, _, (<[i:=l1]> ls); (split; [done|]); (split; [|by apply holds_set]); exists l, l1; done.
  - destruct Ha as (Hne & Hi & Hj). destruct (holds_at bs ls i H Hi) as (b & l & Eb & El & Hb). destruct (holds_at bs ls j H Hj) as (sr & s & Es & Esl & Hs). rewrite Eb, Es.
    pose proof (merge_any lt (mo i) moved b l sr s n Hb Hs) as Hm. destruct (if multi (mo i) then _ else _) as [b' s' n'|b' s'|]; [| |done]; destruct Hm as (l' & sl' & H1 & H2 & H3);
      eexists _, _, _, (<[j:=sl']> (<[i:=l']> ls)); (split; [done|]); (split; [exists l, s, l', sl'; auto|]); by apply holds_set, H2; apply holds_set.
  - destruct Ha as (Hi & Hj & _). destruct (holds_at bs ls i H Hi) as (b & l & Eb & El & Hb). destruct (holds_at bs ls j H Hj) as (sr & s & Es & Esl & Hs). rewrite Eb, Es.
    eexists _, _, _, _. split; [done|]. split; [exists l, s; auto|]. by repeat apply holds_set.
  - destruct Ha as (Hi & Hj & _). destruct (holds_at bs ls i H Hi) as (b & l & Eb & El & Hb). destruct (holds_at bs ls j H Hj) as (sr & s & Es & Esl & Hs). rewrite Eb, Es. destruct (i =? j) eqn:Eij.
    + assert (i = j) as -> by lia. exists bs, h. eexists _, ls. split; [done|]. split; [|done]. exists s. split; [done|]. split; [|done]. by rewrite list_insert_id.
    + destruct (copy_any (mo i) sr s Hs) as (b' & -> & Hb'). eexists _, _, _, _. split; [done|]. split; [exists s; auto|]. by apply holds_set.
  - destruct Ha as (Hi & Hj & _). destruct (holds_at bs ls i H Hi) as (b & l & Eb & El & Hb). destruct (holds_at bs ls j H Hj) as (sr & s & Es & Esl & Hs). rewrite Eb, Es. destruct (i =? j) eqn:Eij.
    + exists bs, h. eexists _, ls. split; [done|]. split; [|done]. exists s. auto.
    + destruct eq.
      * eexists _, _, _, _. split; [done|]. split; [exists s; auto|]. repeat apply holds_set; [done|done|]. apply (repr_new key flat kN flat_mode HkN).
      * destruct (move_values_any (mo i) moved sr s Hs) as (b' & s' & -> & H1 & H2). eexists _, _, _, _. split; [done|]. split; [exists s; auto|]. by repeat apply holds_set.
  - destruct Ha as (_ & l & El & Hp). destruct (Forall2_lookup_r _ _ _ _ _ H El) as (b & Eb & Hb). rewrite Eb. destruct (lookup_lt_is_Some_2 l p Hp) as [v Hv].
    destruct (at_index_spec key flat kN flat_mode HkN b l p Hb ltac:(lia)) as (c & -> & Hc). cbn [rbind]. destruct (extract_spec key flat kN flat_mode HkN b l p c v Hb Hc Hv) as (b' & -> & Hb').
    eexists _, _, _, _. split; [done|]. split; [exists l, v; auto|]. by apply holds_set.
  - destruct (put_legal bs ls h i None lt n H Ha ltac:(done)) as (bs' & h' & r & l & l' & H1 & H2 & H3 & H4). exists bs', h', r. eexists. split; [done|]. split; [exists l, l'; auto|done].
  - destruct Ha as (l0 & El & Hp). destruct (put_legal bs ls h i (Some p) lt n H (lookup_lt_Some _ _ _ El)) as (bs' & h' & r & l & l' & H1 & H2 & H3 & H4).
    { intros l. by rewrite El; intros [= <-]. }
    exists bs', h', r. eexists. split; [done|]. split; [exists l, l'; auto|done].
Qed.
Lemma exec_all_legal p : forall bs ls h, holds bs ls -> safe key mo ls h p -> exists bs' h' rs ls', exec_all key kN mo (mkEnv bs h) p = Some (mkEnv bs' h', rs) /\ legal_all key mo ls h p ls' h' rs /\ holds bs' ls'.
Proof.
  induction p as [|x p IH]; intros bs ls h H Hs; cbn [exec_all legal_all safe] in *; [by exists bs, h, [], ls|]. destruct Hs as [Ha Hs].
  destruct (exec_legal bs ls h x H Ha) as (bs1 & h1 & r & ls1 & -> & Hl & H1). destruct (IH bs1 ls1 h1 H1 (Hs _ _ _ Hl)) as (bs2 & h2 & rs & ls2 & -> & Hl2 & H2).
  exists bs2, h2, (r :: rs), ls2. split; [done|]. split; [|done]. exists ls1, h1. auto.
Qed.

(** ** nothing is lost *)
Definition everything (ls : list (list V)) (h : option V) : list V := concat ls ++ option_list h.
Lemma concat_set (ls : list (list V)) i l l' : ls !! i = Some l -> concat (<[i:=l']> ls) ++ l ≡ₚ concat ls ++ l'.
Proof.
  revert i. induction ls as [|a ls IH]; intros [|i] H; try done; cbn in *.
  - injection H as ->. rewrite <- !app_assoc. rewrite (Permutation_app_comm l' (concat ls ++ l)), <- app_assoc. rewrite (Permutation_app_comm l). by rewrite (Permutation_app_comm l (concat ls ++ l')), <- !app_assoc, (Permutation_app_comm l' l).
  - rewrite <- !app_assoc. by rewrite (IH i H).
Qed.
Lemma set_one (ls : list (list V)) h h' i l l' : ls !! i = Some l -> l' ++ option_list h' ≡ₚ l ++ option_list h -> everything (<[i:=l']> ls) h' ≡ₚ everything ls h.
Proof.
  intros Hl Hp. unfold everything. apply (Permutation_app_inv_r l). rewrite <- !app_assoc, (Permutation_app_comm (option_list h')), (Permutation_app_comm (option_list h)), !app_assoc.
  rewrite (concat_set ls i l l' Hl). rewrite <- !app_assoc. by rewrite Hp.
Qed.
Lemma set_two (ls : list (list V)) i j l s l' s' : i <> j -> ls !! i = Some l -> ls !! j = Some s -> l' ++ s' ≡ₚ l ++ s -> concat (<[j:=s']> (<[i:=l']> ls)) ≡ₚ concat ls.
Proof.
  intros Hne Hi Hj Hp. apply (Permutation_app_inv_r (s ++ l)). rewrite app_assoc. rewrite (concat_set (<[i:=l']> ls) j s s') by (by rewrite list_lookup_insert_ne).
  rewrite <- app_assoc, (Permutation_app_comm s' l), app_assoc, (concat_set ls i l l' Hi), <- app_assoc. by rewrite Hp, (Permutation_app_comm l s).
Qed.
Lemma legal_keeps ls h x ls' h' r : allowed ls h x -> legal ls h x ls' h' r -> moves mo x r -> everything ls' h' ≡ₚ everything ls h.
Proof.
  intros Ha Hl Hm. destruct x as [i a|i j lt n moved|i j|i j|i j eq moved|i p|i lt n|i p lt n]; cbn [PropsAnyMulti.allowed PropsAnyMulti.legal moves] in *; try done.
  - destruct Hl as (l & l' & El & Hr & -> & ->). enough (l' = l) as -> by (by rewrite list_insert_id). destruct r as [r|]; cbn [answers] in Hr; destruct (a_op a); try done; cbn [any_step any_throw] in Hr; by destruct Hr.
  - destruct Ha as (Hne & _). destruct Hl as (l & s & l' & s' & El & Es & (_ & n' & Hn & Hg) & -> & ->). unfold everything. rewrite (set_two ls i j l s l' s'); [done..|]. destruct (multi (mo i)).
    + destruct Hg as [Hg ->]. apply adds_full in Hg as [_ Hg]. destruct r as [r|]; [|by destruct (Hm eq_refl)]. destruct Hn as [_ ->]. rewrite app_nil_r, Hg. by rewrite take_ge by lia.
    + destruct Hg as (rr & new & _ & _ & -> & Hp & _ & Hp2). rewrite Hp2, <- app_assoc. f_equiv. rewrite app_assoc, (Permutation_app_comm new rr), Hp. by rewrite take_drop.
  - destruct Hl as (l & s & El & Es & -> & -> & _). unfold everything. f_equiv. destruct (decide (i = j)) as [->|Hne].
    + simplify_eq. rewrite list_insert_insert, list_insert_id by done. done.
    + apply (set_two ls i j l s); [done..|]. apply Permutation_app_comm.
  - destruct Ha as (-> & _). destruct Hl as (l & v & El & Hv & -> & -> & _). apply (set_one _ _ _ _ l); [done|]. cbn. rewrite app_nil_r. unfold remove_at. rewrite <- (take_drop_middle l p v Hv) at 3.
    replace (p + 1) with (S p) by lia. rewrite <- app_assoc. f_equiv. by rewrite Permutation_app_comm.
  - destruct Hl as (l & l' & El & Hg & ->). apply (set_one _ _ _ _ l); [done|]. destruct h as [v|]; cbn [given] in Hg.
    + destruct Hg as [(q & _ & -> & -> & _)|(-> & -> & _)]; [|done]. cbn. rewrite app_nil_r, insert_at_perm. by rewrite <- Permutation_cons_append.
    + destruct Hg as (-> & -> & _). done.
  - destruct Hl as (l & l' & El & Hg & ->). apply (set_one _ _ _ _ l); [done|]. destruct h as [v|]; cbn [given] in Hg.
    + destruct Hg as [(q & _ & -> & -> & _)|(-> & -> & _)]; [|done]. cbn. rewrite app_nil_r, insert_at_perm. by rewrite <- Permutation_cons_append.
    + destruct Hg as (-> & -> & _). done.
Qed.
Lemma legal_all_keeps p : forall ls h ls' h' rs, safe key mo ls h p -> legal_all key mo ls h p ls' h' rs -> Forall2 (moves mo) p rs -> everything ls' h' ≡ₚ everything ls h.
Proof.
  induction p as [|x p IH]; intros ls h ls' h' [|r rs] Hs Hl Hm; try done; cbn [legal_all safe] in *. { by destruct Hl as [-> ->]. }
  destruct Hl as (ls1 & h1 & H1 & H2). destruct Hs as [Ha Hs]. apply Forall2_cons in Hm as [Hm1 Hm2]. rewrite (IH _ _ _ _ _ (Hs _ _ _ H1) H2 Hm2). by eapply legal_keeps.
Qed.
Lemma safe_after p q : forall ls h ls' h' rs, safe key mo ls h (p ++ q) -> legal_all key mo ls h p ls' h' rs -> safe key mo ls' h' q.
Proof.
  induction p as [|x p IH]; intros ls h ls' h' [|r rs] Hs Hl; try done; cbn [legal_all safe app] in *. { by destruct Hl as [-> ->]. }
  destruct Hl as (ls1 & h1 & H1 & H2). destruct Hs as [_ Hs]. eapply IH; eauto.
Qed.
Lemma safe_before p q : forall ls h, safe key mo ls h (p ++ q) -> safe key mo ls h p.
Proof. induction p as [|x p IH]; intros ls h Hs; cbn [safe app] in *; [done|]. destruct Hs as [Ha Hs]. split; [done|]. eauto. Qed.
Lemma holds_new n : holds (repeat new_btree n) (repeat [] n).
Proof. induction n; constructor; [|done]. apply (repr_new key flat kN flat_mode HkN). Qed.
(* what iteration over the containers shows *)
Definition shown (bs : list (btree V)) (ls : list (list V)) : Prop := Forall2 (fun b l => values b = Ok l /\ b_size b = length l) bs ls.
Lemma holds_shown bs ls : holds bs ls -> shown bs ls.
Proof. intros H. eapply Forall2_impl; [exact H|]. intros b l Hb. by apply (any_values key kN HkN). Qed.

(** C78: programs that start with n empty containers and an empty handle never do anything undefined, whatever the comparators answer and whenever they throw, and
    every call does what the specification says *)
Theorem C78_any_comparators n p : safe key mo (repeat [] n) None p ->
  exists e rs ls, exec_all key kN mo (mkEnv (repeat new_btree n) None) p = Some (e, rs) /\ legal_all key mo (repeat [] n) None p ls (hand e) rs /\ shown (vars e) ls.
Proof.
  intros Hs. destruct (exec_all_legal p _ _ _ (holds_new n) Hs) as (bs & h & rs & ls & H1 & H2 & H3). eexists _, rs, ls. split; [exact H1|]. split; [done|]. by apply holds_shown.
Qed.
(** after any program p, calls that only move values (merge, swap, extract, insertion of nodes, lookups) neither lose nor double a value; a merge of multisets may not throw for that *)
Theorem C78_nothing_lost n p q : safe key mo (repeat [] n) None (p ++ q) ->
  exists e rs ls e' rs' ls', exec_all key kN mo (mkEnv (repeat new_btree n) None) p = Some (e, rs) /\ exec_all key kN mo e q = Some (e', rs') /\ shown (vars e) ls /\ shown (vars e') ls' /\
    (Forall2 (moves mo) q rs' -> concat ls' ++ option_list (hand e') ≡ₚ concat ls ++ option_list (hand e)).
Proof.
  intros Hs. destruct (exec_all_legal p _ _ _ (holds_new n) (safe_before _ _ _ _ Hs)) as (bs & h & rs & ls & H1 & H2 & H3). pose proof (safe_after _ _ _ _ _ _ _ Hs H2) as Hq.
  destruct (exec_all_legal q _ _ _ H3 Hq) as (bs' & h' & rs' & ls' & H4 & H5 & H6). exists (mkEnv bs h), rs, ls, (mkEnv bs' h'), rs', ls'. split; [done|]. split; [done|].
  split; [by apply holds_shown|]. split; [by apply holds_shown|]. intros Hm. cbn [hand]. by eapply legal_all_keeps.
Qed.
End Props.
Print Assumptions C78_any_comparators. Print Assumptions C78_nothing_lost.

(** ** Findings *)
Definition nat_key (x : nat) : nat := x.
Definition sets (_ : nat) : mode := set_mode.
Definition insert_all (i : nat) (vs : list nat) : instr (V := nat) (K := nat) := On i (mkACall (InsertRange vs) (fun _ => Nat.ltb) 1000).
(* a set that has been move-assigned to another one with an unequal allocator is not empty: it keeps what the moves leave of its values, so it holds equal keys if a move
   leaves 0 (as moving from a std::string leaves the empty string).  The order is < in all calls *)
Theorem C78_moved_from_refuted : exists p e rs, exec_all nat_key 3 sets (mkEnv (repeat new_btree 2) None) p = Some (e, rs) /\ safe nat_key sets (repeat [] 2) None p /\
  p = [insert_all 0 [3; 1; 2; 5; 4]; MoveAssign 1 0 false (fun _ => 0)] /\ (exists b, vars e !! 0 = Some b /\ values b = Ok [0; 0; 0; 0; 0] /\
    exists b', call nat_key Nat.ltb 3 set_mode b (EraseKey 0) = Ok (b', RNum 1) /\ call nat_key Nat.ltb 3 set_mode b' (Contains 0) = Ok (b', RBool true)).
Proof.
  exists [insert_all 0 [3; 1; 2; 5; 4]; MoveAssign 1 0 false (fun _ => 0)]. eexists _, _. split; [vm_compute; reflexivity|]. split; [|split; [reflexivity|]].
  - cbn. split. { exists []. split; [done|]. split; [done|]. by left. } intros ls h r (l & l' & El & _ & -> & ->). cbn. split; [|done]. split; [lia|]. split; [lia|done].
  - eexists. split; [reflexivity|]. split; [vm_compute; reflexivity|]. eexists. split; vm_compute; reflexivity.
Qed.
Print Assumptions C78_moved_from_refuted.

(** ** Cases *)
Definition mixed (i : nat) : mode := match i with 2 => multi_mode | _ => set_mode end.
Section Simple.
Context {V K : Type} (key : V -> K) (mo : nat -> mode).
Lemma legal_length ls h x ls' h' r : legal (V := V) (K := K) key mo ls h x ls' h' r -> length ls' = length ls.
Proof.
  destruct x; cbn [legal]; intros H; repeat match goal with H : exists _, _ |- _ => destruct H | H : _ /\ _ |- _ => destruct H end; subst; rewrite ?insert_length; try done.
  destruct (_ =? _); by rewrite ?insert_length.
Qed.
Definition simple (n : nat) (x : instr (V := V) (K := K)) : Prop :=
  match x with
  | On i a => i < n /\ (forall l, pre key l (a_op a)) /\ walks (multi (mo i)) (a_op a) = false
  | Merge i j _ _ _ => i <> j /\ i < n /\ j < n
  | Swap i j | CopyAssign i j | MoveAssign i j _ _ => i < n /\ j < n /\ mo i = mo j
  | Put i _ _ => i < n
  | _ => False
  end.
Lemma safe_simple p : forall ls h, Forall (simple (length ls)) p -> safe key mo ls h p.
Proof.
  induction p as [|x p IH]; intros ls h Hp; cbn [safe]; [done|]. apply Forall_cons in Hp as [Hx Hp]. split; [|intros ls' h' r Hl; apply IH; by rewrite (legal_length _ _ _ _ _ _ Hl)].
  destruct x; cbn [simple allowed] in *; try done. destruct Hx as (Hi & H1 & H2). destruct (lookup_lt_is_Some_2 ls i Hi) as [l El]. exists l. auto.
Qed.
End Simple.
Definition start_mixed : list (instr (V := nat) (K := nat)) :=
  [On 0 (mkACall (Insert 7) moody 60); Take 0 0; On 0 (mkACall (InsertRange [4; 1; 7; 3; 9; 4; 2; 8; 5; 6]) moody 60); On 1 (mkACall (InsertRange [1; 2; 3; 5; 8; 13; 21]) moody 30); On 2 (mkACall (InsertRange [9; 8; 7]) moody 30)].
Definition move_mixed : list (instr (V := nat) (K := nat)) := [Merge 0 1 moody 9 (fun x => x); Put 2 moody 50; Merge 2 0 moody 300 (fun _ => 0); Swap 0 1; Merge 1 2 moody 100 (fun _ => 0)].
Example C78_mixed_case : safe nat_key mixed (repeat [] 3) None (start_mixed ++ move_mixed) /\
  exists e rs e' rs', exec_all nat_key 3 mixed (mkEnv (repeat new_btree 3) None) start_mixed = Some (e, rs) /\ exec_all nat_key 3 mixed e move_mixed = Some (e', rs') /\
    Forall2 (moves mixed) move_mixed rs' /\ In Threw rs' /\ map b_size (vars e') <> map b_size (vars e) /\ list_sum (map b_size (vars e')) = 1 + list_sum (map b_size (vars e)).
Proof.
  split.
  - cbn [start_mixed app safe allowed]. split. { exists []. split; [done|]. split; [done|]. by left. } intros ls h r (l & l' & El & Hr & -> & ->). injection El as <-.
    assert (l' = [7]) as ->. { destruct r as [r|]; cbn in Hr; [|by destruct Hr]. destruct Hr as [(i & Hi & -> & _)|(_ & _ & i & Hi & _)]; [|lia]. by destruct i; [|lia]. }
    split. { split; [done|]. exists [7]. split; [done|]. cbn. lia. } clear r Hr. intros ls h r Hl. pose proof (legal_length _ _ _ _ _ _ _ _ Hl) as Hn. cbn in Hn.
    match goal with |- ?G => change (safe nat_key mixed ls h (drop 2 (start_mixed ++ move_mixed))) end.
    apply safe_simple. rewrite Hn. cbn. repeat (apply List.Forall_cons; [cbn; repeat split; lia|]). constructor.
  - eexists _, _, _, _. split; [vm_compute; reflexivity|]. split; [vm_compute; reflexivity|]. split; [repeat constructor; cbn; congruence|]. split; [cbn; tauto|]. split; [vm_compute; discriminate|vm_compute; reflexivity].
Qed.
