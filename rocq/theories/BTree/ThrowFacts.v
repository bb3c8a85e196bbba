(** What insertions that throw leave behind. *)
From stdpp Require Import list.
From Coq Require Import Arith Lia ZifyBool ZifyNat Sorting.Sorted.
From Verif.Common Require Import Res.
From Verif.BTree Require Import Tree TreeFacts Balance Search Spec SearchFacts Ops Iter OpsFacts SpecFacts Refine Throw.
Local Open Scope nat_scope.
Local Open Scope res_scope.

Section Facts.
Context {V K : Type} (key : V -> K) (lt : K -> K -> bool) (kN : nat) (m : mode).
Context (Hlt : swo lt) (HkN : 3 <= kN).
Implicit Types (b : btree V) (t : node V) (f p : frame V) (fs ps gs : list (frame V)) (v : V) (k : K) (c d : cursor V) (l : list V).
Notation wf := (wf kN). Notation ctx := (ctx kN). Notation wff := (wff kN).
Notation shape := (shape kN).
Notation repr := (repr key lt kN m).

(** every node has a value *)
Fixpoint solid t : bool :=
  match t with
  | Nil => true
  | Node _ k0 rest => negb (bool_decide (length rest = 0)) && solid k0 && forallb (fun x => solid (snd x)) rest
  end.
Lemma solid_close f t : solid (close f t) = true -> solid t = true /\ 1 <= count f.
Proof.
  unfold close. destruct (glue _ _ _) as [k0 rest] eqn:E. cbn [solid]. rewrite !andb_true_iff. intros ((H1 & H2) & H3).
  assert (Forall (fun x => solid (snd x) = true) rest) as H4. { apply Forall_forall. intros x Hx. apply elem_of_list_In in Hx. rewrite forallb_forall in H3. auto. }
  destruct (proj1 (glue_P (fun t => solid t = true) _ _ _ _ _ E) (conj H2 H4)) as (_ & Ht & _). split; [done|]. apply glue_length in E. unfold count. rewrite <- E.
  apply negb_true_iff, bool_decide_eq_false in H1. lia.
Qed.
(* well-shaped, but nodes may be without values *)
Fixpoint ctx0 (h : nat) ps : Prop :=
  match ps with
  | [] => True
  | p :: gs => wff h p /\ count p <= kN /\ ctx0 (S h) gs
  end.
Lemma ctx_ctx0 h ps : ctx h ps -> ctx0 h ps.
Proof. revert h. induction ps as [|p gs IH]; intros h; cbn; [done|]. intros (H1 & H2 & H3). split; [done|]. split; [lia|]. by apply IH. Qed.
Lemma ctx0_ctx h ps t : ctx0 h ps -> solid (close_all ps t) = true -> ctx h ps /\ solid t = true.
Proof.
  revert h t. induction ps as [|p gs IH]; intros h t; cbn; [done|]. intros (H1 & H2 & H3) Hs. destruct (IH _ _ H3 Hs) as [H4 H5]. apply solid_close in H5 as [H5 H6].
  split; [|done]. split; [done|]. split; [lia|done].
Qed.

(** ** rebalance_or_split *)
Definition same_around ps ps' : Prop := before ps' = before ps /\ after ps' = after ps /\ mbefore ps' = mbefore ps /\ mafter ps' = mafter ps.
Lemma rebalance_or_split_x_spec n h f ps : wff h f -> ctx (S h) ps -> count f = kN ->
  exists fs o, rebalance_or_split_x kN n (bool_decide (h = 0)) f ps = Ok (fs, o) /\
    (length ps + 2 <= n -> exists n', o = Some n' /\ n <= n' + length ps + 2) /\
    match o with
    | Some _ => rebalance_or_split kN (bool_decide (h = 0)) f ps = Ok fs
    | None => exists ps', fs = f :: ps' /\ ctx0 (S h) ps' /\ same_around ps ps'
    end.
Proof.
  revert n h f. induction ps as [|p gs IH]; intros n h f Hf Hctx Hc; cbn [rebalance_or_split_x rebalance_or_split length].
  - destruct n as [|[|n]].
    + eexists _, _; split; [done|]. split; [lia|]. exists []. repeat split.
    + eexists _, _; split; [done|]. split; [lia|]. eexists. split; [done|]. split; [|repeat split]. cbn. split; [split; constructor|]. unfold count; cbn. lia.
    + destruct (split_spec kN h f (mkFrame plain [] [])) as (f' & p' & E & _); auto. { split; apply Forall_nil; done. }
      rewrite E. cbn. eexists _, _; split; [done|]. split; [|done]. intros _. eexists; split; [done|]. lia.
  - destruct Hctx as (Hp & Hcp & Hgs).
    destruct (try_left kN f p) as [[f' p']|]. { eexists _, _; split; [done|]. split; [|done]. intros _. eexists; split; [done|lia]. }
    destruct (try_right kN f p) as [[f' p']|]. { eexists _, _; split; [done|]. split; [|done]. intros _. eexists; split; [done|lia]. }
    destruct (count p =? kN) eqn:E.
    + destruct (rebalance_or_split_spec kN (S h) p gs) as (p2 & gs2 & E3 & Hp2 & Hc2 & Hctx2 & Hne & Hv2 & Hm2); auto; [lia|].
      destruct (IH n (S h) p Hp Hgs) as (fs & o & E2 & Hn & Ho); [lia|]. change (bool_decide (S h = 0)) with false in *. rewrite E2, E3. cbn [rbind].
      destruct o as [[|n']|].
      * rewrite E3 in Ho. injection Ho as <-. eexists _, _; split; [done|]. split. { intros H. destruct Hn as (n' & Hx & Hy); [lia|]. simplify_eq. lia. }
        eexists. split; [done|]. destruct Hv2, Hm2. split; [|done]. cbn. split; [done|]. split; [lia|]. by apply ctx_ctx0.
      * rewrite E3 in Ho. injection Ho as <-. destruct (split_spec kN h f p2) as (f' & p' & E4 & _); auto. rewrite E4. cbn [rbind of_option].
        eexists _, _; split; [done|]. split; [|done]. intros H. destruct Hn as (n2 & Hx & Hy); [lia|]. simplify_eq. eexists; split; [done|]. lia.
      * destruct Ho as (ps' & -> & Hps' & H1 & H2 & H3 & H4). eexists _, _; split; [done|]. split. { intros H. destruct Hn as (n2 & Hx & _); [lia|]. done. }
        eexists. split; [done|]. split. { cbn. split; [done|]. split; [lia|done]. } repeat split; cbn; by rewrite ?H1, ?H2, ?H3, ?H4.
    + cbn [rbind]. destruct n as [|n].
      * eexists _, _; split; [done|]. split; [lia|]. eexists. split; [done|]. split; [|repeat split]. cbn. split; [done|]. split; [lia|]. by apply ctx_ctx0.
      * destruct (split_spec kN h f p) as (f' & p' & E4 & _); auto. rewrite E4. cbn [rbind of_option]. eexists _, _; split; [done|]. split; [|done]. intros _. eexists; split; [done|lia].
Qed.

(** ** internal_emplace *)
(* the values [l] are all there, in their order; if every node has a value the tree is as any other *)
Definition kept b l : Prop := elems (b_root b) = l /\ b_size b = length l /\ (solid (b_root b) = true -> shape b).
Definition fate (ok : bool) l (r : res (btree V * cursor V)) b (o : outcome V) : Prop :=
  match o with
  | Inserted c => ok = true /\ r = Ok (b, c)
  | NoMemory => kept b l
  | Threw _ => ok = false /\ kept b l
  end.
Lemma kept_leaf cap s f ps l : wff 0 f -> count f <= kN -> ctx0 1 ps -> (ctx 1 ps -> MK (mbefore ps ++ f_mark f :: mafter ps)) ->
  (ps = [] -> count f <= cap /\ 1 <= cap <= kN) -> (ps <> [] -> cap = kN) -> before (f :: ps) ++ after (f :: ps) = l -> s = length l -> kept (mkBt (root_of (mkCur (f :: ps) Nil)) s cap) l.
Proof.
  intros Hf Hc Hps HM H1 H2 Hl ->. unfold kept. cbn [b_root b_size]. unfold root_of. cbn [c_path c_sub].
  assert (He : elems (close_all (f :: ps) Nil) = l) by (rewrite elems_root, elems_nil; exact Hl). split; [done|]. split; [done|]. intros Hs.
  cbn [close_all] in Hs. destruct (ctx0_ctx 1 ps _ Hps Hs) as [Hx Hy]. apply solid_close in Hy as [_ Hy].
  apply (leaf_shape kN HkN _ f ps (length l)); cbn [b_root b_size b_cap]; auto; try lia. by rewrite He.
Qed.
Lemma emplace_x_leaf n ok b f ps v l : leaf_ok kN b f ps -> l = before (f :: ps) ++ after (f :: ps) -> b_size b = length l ->
  exists bx o, internal_emplace_x kN n ok b (mkCur (f :: ps) Nil) v = Ok (bx, o) /\ (length ps + 2 <= n -> o <> NoMemory) /\
    fate ok l (internal_emplace kN b (mkCur (f :: ps) Nil) v) bx o.
Proof.
  intros (Hf & Hcnt & Hps & HM & Hc1 & Hc2) Hl Hsz. unfold internal_emplace_x, internal_emplace. cbn [c_sub leaf rbind c_path].
  assert (Hgo : forall cap f' ps', wff 0 f' -> count f' < cap -> cap <= kN -> ctx 1 ps' -> MK (mbefore ps' ++ f_mark f' :: mafter ps') ->
            (ps' <> [] -> cap = kN) -> vals_kept f ps f' ps' ->
    exists bx o, (if count f' <? cap then
            if ok then
              let c' := mkCur (mkFrame (f_mark f') (f_l f') ((v, Nil) :: f_r f') :: ps') Nil in
              Ok (mkBt (root_of c') (S (b_size b)) cap, Inserted c')
            else Ok (mkBt (root_of (mkCur (f' :: ps') Nil)) (b_size b) cap, Threw (negb (bool_decide (length (f_r f') = 0))))
          else UB) = Ok (bx, o) /\ (length ps + 2 <= n -> o <> NoMemory) /\
       fate ok l (if count f' <? cap then let c' := mkCur (mkFrame (f_mark f') (f_l f') ((v, Nil) :: f_r f') :: ps') Nil in Ok (mkBt (root_of c') (S (b_size b)) cap, c') else UB) bx o).
  { intros cap f' ps' Hf' Hlt' Hcap Hps' HM' Hne [Hvb Hva]. replace (count f' <? cap) with true by lia. destruct ok; eexists _, _; (split; [done|]); (split; [done|]); (split; [done|]); [done|].
    apply kept_leaf; auto; try lia. { by apply ctx_ctx0. } by rewrite Hl, <- Hvb, <- Hva. }
  destruct (count f =? b_cap b) eqn:E1.
  - destruct (b_cap b <? kN) eqn:E2.
    + destruct ps as [|p gs]; [|specialize (Hc2 ltac:(done)); lia]. destruct (Hc1 eq_refl) as [H1 H2]. destruct n as [|n]; cbn [rbind].
      * eexists _, _; split; [done|]. split; [cbn; lia|]. apply kept_leaf; auto.
      * apply (Hgo _ (mkFrame both (f_l f) (f_r f)) []); try done; try lia.
        -- unfold count in *; cbn. lia.
        -- cbn. repeat split; constructor.
    + assert (b_cap b = kN) as Hcap. { destruct ps; [destruct (Hc1 eq_refl); lia|auto]. }
      destruct (rebalance_or_split_spec kN 0 f ps) as (f' & ps' & E & Hf' & Hcf' & Hps' & Hne & Hv & Hm); auto; [lia|].
      destruct (rebalance_or_split_x_spec n 0 f ps) as (fs & o & Ex & Hn & Ho); auto; [lia|].
      change (bool_decide (0 = 0)) with true in *. rewrite E, Ex. cbn [rbind]. destruct o as [n'|].
      * rewrite E in Ho. injection Ho as <-. apply Hgo; auto; try lia. all: try (apply Hm; auto).
      * destruct Ho as (qs & -> & Hqs & H1 & H2 & H3 & H4). eexists _, _; split; [done|]. split. { intros H. destruct Hn as (? & ? & _); [lia|done]. }
        apply kept_leaf; auto; try lia. { by rewrite H3, H4. } subst l. cbn. by rewrite H1, H2.
  - cbn [rbind]. apply Hgo; auto; try done.
    + destruct ps; [destruct (Hc1 eq_refl); lia|]. rewrite Hc2 by done. specialize (Hc2 ltac:(done)). lia.
    + destruct ps; [destruct (Hc1 eq_refl); lia|]. rewrite Hc2 by done. lia.
Qed.
Lemma emplace_x_spec n ok b c v : shape b -> root_of c = b_root b -> (c_sub c = Nil /\ c_path c <> []) \/ (normal c /\ b_root b <> Nil) ->
  exists bx o, internal_emplace_x kN n ok b c v = Ok (bx, o) /\ (height (b_root b) + 1 <= n -> o <> NoMemory) /\
    fate ok (elems (b_root b)) (internal_emplace kN b c v) bx o.
Proof.
  intros Hb Hr Hc.
  assert (Hel : elems (b_root b) = lefts c ++ rights c) by (rewrite <- Hr; apply root_elems). pose proof (size_shape kN b Hb) as Hsz.
  assert (Hleaf : forall c0, root_of c0 = b_root b -> c_sub c0 = Nil -> c_path c0 <> [] ->
    exists bx o, internal_emplace_x kN n ok b c0 v = Ok (bx, o) /\ (height (b_root b) + 1 <= n -> o <> NoMemory) /\ fate ok (elems (b_root b)) (internal_emplace kN b c0 v) bx o).
  { intros c0 Hr0 Hs0 Hp0. pose proof (root_elems c0) as He0. rewrite Hr0 in He0. destruct Hb as (H & Hw & Hrest).
    assert (height (b_root b) = length (c_path c0)) as Hh. { rewrite (wf_height _ _ _ Hw). rewrite <- Hr0 in Hw. by destruct (wf_nil_sub kN _ _ Hw Hs0). }
    destruct (c_path c0) as [|f ps] eqn:E; [done|]. destruct c0 as [fs t0]. cbn in *. subst.
    destruct (emplace_x_leaf n ok b f ps v (elems (b_root b))) as (bx & o & E' & Hn & Hf).
    { eapply (shape_leaf_ok kN HkN b (mkCur (f :: ps) Nil)); eauto. exists H. auto. }
    { rewrite He0. unfold lefts, rights. cbn [c_path c_sub]. by rewrite elems_nil, app_nil_r. } { done. }
    exists bx, o. split; [done|]. split; [|done]. intros. apply Hn. lia. }
  assert (c_sub c = Nil \/ c_sub c <> Nil) as [Hs|Hs] by (destruct (c_sub c); auto).
  - apply Hleaf; auto. destruct Hc as [[_ ?]|[Hn Hne]]; [done|]. intros E. unfold root_of in Hr. rewrite E, Hs in Hr. by rewrite <- Hr in Hne.
  - destruct Hc as [[? _]|[Hn Hne]]; [done|].
    assert (HL : exists L v', lefts c = L ++ [v']).
    { destruct Hb as (H & Hw & _). rewrite <- Hr in Hw. destruct (open_wf kN _ _ _ Hw) as (h & -> & _ & Ht). destruct h; [by destruct (c_sub c)|].
      apply wf_elems in Ht. unfold lefts. pose proof (unsnoc_spec (before (c_path c) ++ elems (c_sub c))) as Hu. destruct (unsnoc _) as [[L v']|]; [eauto|].
      apply app_eq_nil in Hu as [_ Hu]. done. }
    destruct HL as (L & v' & HL). destruct (Hb) as (H & Hw & _). rewrite <- Hr in Hw.
    destruct (prev_spec kN H c L v' Hw Hn HL) as (c1 & E1 & Hr1 & Hn1 & Hl1 & HR1 & _ & Hs1). specialize (Hs1 Hs).
    destruct (shift_leaf kN b (length L) c1 v' (rights c)) as (c2 & E2 & Hr2 & Hs2 & Hl2 & HR2 & Hp2); auto; try congruence.
    assert (leaf (c_sub c) = false) as Hlf by (by destruct (c_sub c)).
    destruct (Hleaf c2) as (bx & o & E' & Hrest); auto.
    exists bx, o. unfold internal_emplace, internal_emplace_x in *. rewrite Hlf, E1. cbn [rbind]. rewrite E2. cbn [rbind]. rewrite Hs2 in E', Hrest. cbn [leaf rbind] in E', Hrest. auto.
Qed.
Notation has := (has key lt). Notation lower := (lower key lt). Notation upper := (upper key lt).
Notation set_insert := (set_insert key lt).
(** ** insertions: what the container holds after each outcome *)
Definition holds b l : Prop := elems (b_root b) = l /\ b_size b = length l /\ (solid (b_root b) = true -> repr b l).
Lemma kept_holds b l : sorted key lt (multi m) l -> kept b l -> holds b l.
Proof. intros Hs (H1 & H2 & H3). split; [done|]. split; [done|]. intros H. split; [auto|]. auto. Qed.
Lemma fresh_x n ok v : exists bx o, internal_emplace_x kN n ok fresh (mkCur [mkFrame both [] []] Nil) v = Ok (bx, o) /\ o <> NoMemory /\
  fate ok [] (internal_emplace kN fresh (mkCur [mkFrame both [] []] Nil) v) bx o.
Proof.
  destruct (emplace_x_leaf n ok fresh (mkFrame both [] []) [] v [] (fresh_leaf_ok kN HkN) eq_refl eq_refl) as (bx & o & E & _ & Hf).
  exists bx, o. split; [done|]. split; [|done]. unfold internal_emplace_x, fresh in E. cbn in E. destruct ok; by simplify_eq.
Qed.
Theorem insert_unique_x_spec n ok b l v : multi m = false -> repr b l -> exists bx o, insert_unique_x key lt kN m n ok b v = Ok (bx, o, negb (has (key v) l)) /\
  (height (b_root b) + 1 <= n -> o <> NoMemory) /\
  match o with
  | Inserted c => repr bx (set_insert v l) /\ it (b_root bx) (lower (key v) l) c /\ (ok = true \/ has (key v) l = true) /\ (has (key v) l = true -> bx = b) /\
      exists c', insert_unique key lt kN m b v = Ok (bx, c', negb (has (key v) l)) /\ c' = c
  | NoMemory => has (key v) l = false /\ holds bx l
  | Threw _ => ok = false /\ has (key v) l = false /\ holds bx l
  end.
Proof.
  intros Hmu Hb. pose proof Hb as (_ & _ & Hso). destruct (insert_unique_spec key lt kN m Hlt HkN b l v Hmu Hb) as (b1 & c1 & E1 & Hb1 & Hi1 & Heq1).
  pose proof E1 as E0. unfold insert_unique in E1. rewrite fresh_root, (repr_empty key lt kN m b l Hb) in E1. unfold insert_unique_x, with_root_x. rewrite (repr_empty key lt kN m b l Hb).
  destruct l as [|x l].
  - cbn [length Nat.eqb] in *. destruct n as [|n]. { eexists _, _. split; [done|]. split; [lia|]. split; [done|]. split; [apply Hb|]. split; [by rewrite (repr_size key lt kN m b [] Hb)|done]. }
    change (mkBt (Node both Nil []) 0 1) with (@fresh V). revert E1.
    unfold internal_locate. change (height (b_root fresh)) with 1. cbn [descend b_root fresh].
    pose proof (node_lower_spec lt Hlt m (key v) [] (SSorted_nil _)) as Hn. cbn [map]. destruct (node_lower lt m (key v) []) as [i e]. destruct Hn as ((Hi & _) & He).
    cbn in Hi. assert (i = 0) as -> by lia. assert (three m && e = false) as Hte. { destruct (three m); [|done]. destruct He as [_ He]. destruct e; [|done]. specialize (He eq_refl). cbn in He. lia. }
    cbn [child_at walk rbind]. rewrite Hte. cbn [rbind].
    destruct (fresh_x n ok v) as (bx & o & E & Ho & Hf). intros E1.
    exists bx, o. split. { destruct (three m); cbn [rbind internal_last c_path c_sub climb f_r]; change (mkBt (Node both Nil []) 0 1) with (@fresh V); rewrite E; done. }
    split; [done|]. destruct o as [c| |hole]; [|done|].
    + destruct Hf as [-> Hf]. change (mkBt (Node both Nil []) 0 1) with (@fresh V) in E1. destruct (three m); cbn [rbind internal_last c_path c_sub climb f_r] in E1; rewrite Hf in E1; cbn in E1; simplify_eq; eauto 8.
    + destruct Hf as [-> Hf]. split; [done|]. split; [done|]. by apply kept_holds.
  - cbn [length Nat.eqb] in *. destruct (probe_spec key lt kN m Hlt HkN b (x :: l) (key v) Hb) as (c & e & o & Hloc & Hp & Hroot & Ho). rewrite Hloc in *. cbn [rbind] in *. unfold probe in Hp. rewrite Hp in *. cbn [rbind] in *.
    destruct o as [c'|].
    + destruct Ho as [Hh _]. rewrite Hh in *. simplify_eq. eexists _, _. split; [done|]. split; [done|]. eauto 8.
    + destruct Ho as (Hh & Hsub & Hpne & Hlen). rewrite Hh in *. assert (Hne : b_root b <> Nil) by (by eapply repr_nonempty_root).
      destruct (emplace_x_spec n ok b c v) as (bx & o & E & Hn & Hf); auto; [apply Hb|]. rewrite E. cbn [rbind]. exists bx, o. split; [done|]. split; [done|].
      pose proof Hb as (_ & Hl & _). rewrite Hl in Hf. destruct o as [c'| |hole].
      * destruct Hf as [-> Hf]. rewrite Hf in E1. cbn in E1. simplify_eq. eauto 8.
      * split; [done|]. by apply kept_holds.
      * destruct Hf as [-> Hf]. split; [done|]. split; [done|]. by apply kept_holds.
Qed.
Theorem insert_multi_x_spec n ok b l v : multi m = true -> repr b l -> exists bx o, insert_multi_x key lt kN m n ok b v = Ok (bx, o) /\
  (height (b_root b) + 1 <= n -> o <> NoMemory) /\
  match o with
  | Inserted c => ok = true /\ repr bx (insert_at (upper (key v) l) v l) /\ it (b_root bx) (upper (key v) l) c /\ insert_multi key lt kN m b v = Ok (bx, c)
  | NoMemory => holds bx l
  | Threw _ => ok = false /\ holds bx l
  end.
Proof.
  intros Hmu Hb. pose proof Hb as (_ & _ & Hso). destruct (insert_multi_spec key lt kN m Hlt HkN b l v Hmu Hb) as (b1 & c1 & E1 & Hb1 & Hi1).
  pose proof E1 as E0. unfold insert_multi in E1. rewrite fresh_root, (repr_empty key lt kN m b l Hb) in E1. unfold insert_multi_x, with_root_x. rewrite (repr_empty key lt kN m b l Hb).
  destruct l as [|x l].
  - cbn [length Nat.eqb] in *. destruct n as [|n]. { eexists _, _. split; [done|]. split; [lia|]. split; [apply Hb|]. split; [by rewrite (repr_size key lt kN m b [] Hb)|done]. }
    change (mkBt (Node both Nil []) 0 1) with (@fresh V). revert E1.
    unfold internal_upper_bound. change (height (b_root fresh)) with 1. cbn [descend b_root fresh].
    pose proof (node_upper_spec lt Hlt m (key v) [] (SSorted_nil _)) as Hn. cbn [map]. destruct (node_upper lt m (key v) []) as [i e]. destruct Hn as ((Hi & _) & ->).
    cbn in Hi. assert (i = 0) as -> by lia. cbn [child_at walk rbind andb descend]. unfold internal_last. cbn [c_path c_sub climb f_r].
    destruct (fresh_x n ok v) as (bx & o & E & Ho & Hf). intros E1. exists bx, o. split; [exact E|]. split; [done|]. destruct o as [c| |hole]; [|done|].
    + destruct Hf as [-> Hf]. split; [done|]. cbn in E1, Hf. rewrite Hf in E1. simplify_eq. auto.
    + destruct Hf as [-> Hf]. split; [done|]. by apply kept_holds.
  - cbn [length Nat.eqb] in *. destruct (internal_upper_spec key lt kN m Hlt HkN b (x :: l) (key v) Hb) as (o & Ho1 & Ho). rewrite Ho1 in *. cbn [rbind] in *.
    destruct (internal_end_spec key lt kN m b (x :: l) o _ Hb Ho) as (c & Hc1 & Hc). rewrite Hc1 in *. cbn [rbind] in *. destruct Hc as (Hr & Hn & _).
    assert (Hne : b_root b <> Nil) by (by eapply repr_nonempty_root).
    destruct (emplace_x_spec n ok b c v) as (bx & o' & E & Hn' & Hf); auto; [apply Hb|]. rewrite E. exists bx, o'. split; [done|]. split; [done|].
    pose proof Hb as (_ & Hl & _). rewrite Hl in Hf. destruct o' as [c'| |hole].
    + destruct Hf as [-> Hf]. rewrite Hf in E1. simplify_eq. auto.
    + by apply kept_holds.
    + destruct Hf as [-> Hf]. split; [done|]. by apply kept_holds.
Qed.
End Facts.
