(** Iterators: the position of every iterator in the order of the values, ++ and --. *)
From stdpp Require Import list.
From Coq Require Import Arith Lia ZifyBool ZifyNat.
From Verif.Common Require Import Res.
From Verif.BTree Require Import Tree TreeFacts Balance Search Ops.
Local Open Scope nat_scope.

Section Iter.
Context {V : Type} (kN : nat).
Implicit Types (t k : node V) (f p : frame V) (fs ps gs : list (frame V)) (v : V) (l : list (node V * V)) (r rest : list (V * node V)) (c d : cursor V).
Notation wf := (wf kN). Notation ctx := (ctx kN). Notation wff := (wff kN).

Lemma open_wf H fs t : wf H (close_all fs t) -> exists h, H = h + length fs /\ ctx h fs /\ wf h t.
Proof.
  revert H t. induction fs as [|f fs IH]; intros H t Hw; cbn in *; [exists H; auto with lia|].
  destruct (IH _ _ Hw) as (h & -> & Hc & Hf). destruct h as [|h]; [by destruct (close f t) eqn:E; [apply close_not_nil in E|]|].
  apply wf_close in Hf as (H1 & H2 & H3). exists h. split; [lia|]. auto.
Qed.
Lemma close_wf h fs t : ctx h fs -> wf h t -> wf (h + length fs) (close_all fs t).
Proof.
  revert h t. induction fs as [|f fs IH]; intros h t Hc Hw; cbn in *; [by rewrite Nat.add_0_r|].
  destruct Hc as (H1 & H2 & H3). replace (h + S (length fs)) with (S h + length fs) by lia. apply IH; auto. by apply wf_close.
Qed.
Lemma close_all_app fs ps t : close_all (fs ++ ps) t = close_all ps (close_all fs t).
Proof. revert t; induction fs; intros; cbn; auto. Qed.
Lemma before_app fs ps : before (fs ++ ps) = before ps ++ before fs.
Proof. induction fs as [|f fs IH]; cbn; [by rewrite app_nil_r|]. by rewrite IH, app_assoc. Qed.
Lemma after_app fs ps : after (fs ++ ps) = after fs ++ after ps.
Proof. induction fs as [|f fs IH]; cbn; [done|]. by rewrite IH, app_assoc. Qed.
Lemma ctx_app h fs ps : ctx h (fs ++ ps) <-> ctx h fs /\ ctx (h + length fs) ps.
Proof.
  revert h. induction fs as [|f fs IH]; intros h; cbn; [rewrite Nat.add_0_r; tauto|].
  rewrite IH. replace (S h + length fs) with (h + S (length fs)) by lia. tauto.
Qed.
Lemma glue_shift l t v k r : glue (l ++ [(t, v)]) k r = glue l t ((v, k) :: r).
Proof. induction l as [|[k' v'] l IH]; cbn; [done|]. by rewrite IH. Qed.
Lemma close_shift a l t v k r : close (mkFrame a (l ++ [(t, v)]) r) k = close (mkFrame a l ((v, k) :: r)) t.
Proof. unfold close; cbn. by rewrite glue_shift. Qed.
(* a leaf opened: the marks around it *)
Lemma lmarks_close h f t : wf (S h) t -> lmarks (close f t) = mcat_l (f_l f) ++ lmarks t ++ mcat_r (f_r f) \/ ~ wff (S h) f.
Proof.
  intros Ht. destruct (f_l f) as [|[k v] l] eqn:E.
  - left. unfold close. rewrite E. cbn. by rewrite (lmarks_wf kN h).
  - destruct (decide (leaf k = false)) as [Hk|Hk].
    + left. unfold close. rewrite E. cbn. destruct (glue l t (f_r f)) as [t' r'] eqn:E2. rewrite lmarks_inner, mcat_r_cons by done.
      rewrite mcat_l_cons, <- app_assoc. by rewrite (glue_marks _ _ _ _ _ E2).
    + right. intros [Hw _]. rewrite E in Hw. apply Forall_cons in Hw as [Hw _]. cbn [fst] in Hw. apply wf_leaf in Hw. by rewrite Hw in Hk.
Qed.
Lemma lmarks_inner_root h fs t : wf (S h) t -> ctx (S h) fs -> lmarks (close_all fs t) = mbefore fs ++ lmarks t ++ mafter fs.
Proof.
  revert h t. induction fs as [|f fs IH]; intros h t Ht Hc; cbn; [by rewrite app_nil_r|].
  destruct Hc as (H1 & H2 & H3). rewrite (IH (S h)); auto; [|by apply wf_close].
  destruct (lmarks_close h f t Ht) as [->|]; [|done]. by rewrite <- !app_assoc.
Qed.
Lemma lmarks_root f ps : wff 0 f -> 1 <= count f <= kN -> ctx 1 ps -> lmarks (close_all (f :: ps) Nil) = mbefore ps ++ f_mark f :: mafter ps.
Proof.
  intros Hf Hcnt Hps. cbn. rewrite (lmarks_inner_root 0); auto; [|by apply wf_close].
  f_equal. unfold close. destruct (glue _ _ _) as [k rest] eqn:E. destruct Hf as [Hf1 Hf2].
  assert (wf 0 k) as Hk. { apply (glue_P (wf 0)) in E as Hg. destruct Hg as [_ Hg]. by destruct Hg as [? _]. }
  destruct k; [|done]. by rewrite lmarks_leaf.
Qed.

(** ** iterators *)
Definition lefts c : list V := before (c_path c) ++ elems (c_sub c).
Definition rights c : list V := after (c_path c).
(** at a value, or at the end of the last leaf *)
Definition normal c : Prop :=
  match c_path c with [] => c_sub c = Nil | f :: _ => f_r f <> [] \/ (c_sub c = Nil /\ rights c = []) end.
Lemma root_elems c : elems (root_of c) = lefts c ++ rights c.
Proof. unfold root_of. rewrite elems_root. unfold lefts, rights. by rewrite app_assoc. Qed.
Lemma normal_value c v R : normal c -> rights c = v :: R -> value c = Ok v.
Proof.
  unfold normal, rights, value. destruct (c_path c) as [|f ps]; cbn; [done|]. intros [H|[? H]] E; [|congruence].
  destruct (f_r f) as [|[v' k] r]; [done|]. rewrite cat_r_cons in E. cbn in E. by simplify_eq.
Qed.

Lemma go_left_struct t ps : exists fs0, go_left t ps = mkCur (fs0 ++ ps) Nil /\ close_all fs0 Nil = t /\ Forall (fun f => f_l f = []) fs0.
Proof.
  revert ps. induction t as [|a k0 IH rest]; intros ps; cbn.
  - exists []. split; [done|]. split; [done|]. constructor.
  - destruct (IH (mkFrame a [] rest :: ps)) as (fs0 & -> & Hc & Hf). exists (fs0 ++ [mkFrame a [] rest]). rewrite <- app_assoc. cbn.
    split; [done|]. split. { rewrite close_all_app, Hc. reflexivity. }
    rewrite Forall_app. split; [done|]. by constructor.
Qed.
Lemma close_all_not_nil f gs t : close_all (f :: gs) t <> Nil.
Proof. revert f t. induction gs as [|g gs IH]; intros; cbn; [apply close_not_nil|]. apply (IH g). Qed.
Lemma go_left_close_all fs t ps : Forall (fun f => f_l f = []) fs -> go_left (close_all fs t) ps = go_left t (fs ++ ps).
Proof.
  revert t ps. induction fs as [|f fs IH]; intros t ps H; cbn; [done|]. apply Forall_cons in H as [H1 H2].
  rewrite IH by auto. unfold close. rewrite H1. cbn. destruct f as [a l r]; cbn in *. by subst.
Qed.
Lemma before_lefts fs : Forall (fun f : frame V => f_l f = []) fs -> before fs = [].
Proof. induction 1 as [|f fs H _ IH]; cbn; [done|]. by rewrite IH, H. Qed.
Lemma after_rights fs : Forall (fun f : frame V => f_r f = []) fs -> after fs = [].
Proof. induction 1 as [|f fs H _ IH]; cbn; [done|]. by rewrite IH, H. Qed.
Lemma before_nil_inv h fs : ctx h fs -> before fs = [] -> Forall (fun f => f_l f = []) fs.
Proof.
  revert h; induction fs as [|f fs IH]; cbn; intros h Hc H; [constructor|]. destruct Hc as (H1 & H2 & H3).
  apply app_eq_nil in H as [Hb Hl]. constructor; [|eauto]. destruct (f_l f) as [|[k v] l]; [done|]. rewrite cat_l_cons in Hl. by destruct (elems k).
Qed.
Lemma after_nil_inv fs : after fs = [] -> Forall (fun f => f_r f = []) fs.
Proof.
  induction fs as [|f fs IH]; cbn; intros H; [constructor|].
  apply app_eq_nil in H as [Hr Ha]. constructor; [|eauto]. destruct (f_r f) as [|[v k] r]; [done|]. by rewrite cat_r_cons in Hr.
Qed.
Lemma go_right_struct h t ps : wf h t -> exists fs0, go_right (height t) t ps = Ok (mkCur (fs0 ++ ps) Nil) /\ close_all fs0 Nil = t /\ Forall (fun f => f_r f = []) fs0.
Proof.
  intros Hw. rewrite (wf_height _ _ _ Hw). revert t ps Hw. induction h as [|h IH]; intros [|a k0 rest] ps Hw; try done.
  - exists []. cbn. split; [done|]. split; [done|]. constructor.
  - cbn [go_right ncount]. destruct (child_at_spec (length rest) a k0 rest) as (f & t' & -> & Hcl & Hlen & Hm); [lia|].
    cbn [rbind]. rewrite <- Hcl in Hw. apply wf_close in Hw as (H1 & H2 & H3).
    destruct (IH t' (f :: ps) H2) as (fs0 & -> & Hc & Hf). exists (fs0 ++ [f]). rewrite <- app_assoc. split; [done|]. split.
    + by rewrite close_all_app, Hc.
    + rewrite Forall_app. split; [done|]. constructor; [|constructor].
      revert Hcl. unfold close. destruct (glue _ _ _) as [k r] eqn:E. intros ?; simplify_eq. apply glue_length in E. destruct (f_r f); [done|]. cbn in *. lia.
Qed.
Lemma climb_spec f t ps : match climb f t ps with
  | Some c => root_of c = close_all (f :: ps) t /\ rights c = after (f :: ps) /\ (exists g gs, c_path c = g :: gs /\ f_r g <> []) /\
              lefts c = before (f :: ps) ++ elems t
  | None => after (f :: ps) = []
  end.
Proof.
  revert f t. induction ps as [|p gs IH]; intros f t; cbn [climb].
  - destruct (f_r f) eqn:E; cbn; [by rewrite E|]. unfold root_of, rights, lefts. cbn. rewrite E. repeat split. eexists _, _; split; [done|]. by rewrite E.
  - destruct (f_r f) eqn:E.
    + specialize (IH p (close f t)). destruct (climb p (close f t) gs) as [c|].
      * destruct IH as (H1 & H2 & H3 & H4). rewrite H1, H2, H4. cbn. rewrite E, close_elems, E. cbn.
        rewrite cat_r_nil, app_nil_r, <- !app_assoc. auto.
      * cbn. rewrite E. exact IH.
    + unfold root_of, rights, lefts. cbn. rewrite E. repeat split. eexists _, _; split; [done|]. by rewrite E.
Qed.
Lemma climb_through fs p gs t : Forall (fun f => f_r f = []) fs -> climb p (close_all fs t) gs =
  match fs ++ p :: gs with f :: ps => climb f t ps | [] => None end.
Proof.
  revert t. induction fs as [|f fs IH]; intros t H; cbn; [done|]. apply Forall_cons in H as [H1 H2].
  rewrite IH by auto. destruct fs as [|g fs]; cbn; by rewrite H1.
Qed.
Lemma climb_here f t ps : f_r f <> [] -> climb f t ps = Some (mkCur (f :: ps) t).
Proof. destruct ps; cbn; by destruct (f_r f). Qed.
Lemma climb_none f t ps : after (f :: ps) = [] -> climb f t ps = None.
Proof.
  intros H. pose proof (climb_spec f t ps) as Hc. destruct (climb f t ps) as [c|]; [|done].
  destruct Hc as (_ & H2 & (g & gs & E & Hg) & _). rewrite H in H2. unfold rights in H2. rewrite E in H2.
  apply after_nil_inv in H2. apply Forall_cons in H2 as [? _]. done.
Qed.

(** operator++ *)
Theorem next_spec H c v R : wf H (root_of c) -> normal c -> rights c = v :: R ->
  exists c', next c = Ok c' /\ root_of c' = root_of c /\ normal c' /\ lefts c' = lefts c ++ [v] /\ rights c' = R.
Proof.
  intros Hw Hn Hr. destruct c as [[|f ps] t]; [done|]. unfold normal, rights in *. cbn [c_path c_sub] in *.
  destruct Hn as [Hn|[? Hn]]; [|congruence]. destruct (f_r f) as [|[v' k] r] eqn:Er; [done|].
  cbn [after] in Hr. rewrite Er, cat_r_cons in Hr. cbn in Hr. simplify_eq.
  destruct (open_wf _ _ _ Hw) as (h & -> & ((Hfl & Hfr) & Hcnt & Hps) & Ht). rewrite Er in Hfr. apply Forall_cons in Hfr as [Hk Hr]. cbn [snd] in Hk. cbn [c_sub] in Ht.
  unfold next, shift. cbn [c_path c_sub]. rewrite Er. cbn [rbind].
  set (f1 := mkFrame (f_mark f) (f_l f ++ [(t, v)]) r).
  assert (Hroot : close_all (f1 :: ps) k = root_of (mkCur (f :: ps) t)).
  { unfold root_of. cbn. unfold f1. rewrite close_shift. destruct f; cbn in *; by subst. }
  rewrite (wf_leaf _ _ _ Ht). destruct (bool_decide (h = 0)) eqn:Eh.
  - apply bool_decide_eq_true in Eh as ->. destruct t; [|done]. destruct k; [|done]. cbn [c_path c_sub].
    pose proof (climb_spec f1 Nil ps) as Hc. destruct (climb f1 Nil ps) as [c'|].
    + destruct Hc as (H1 & H2 & (g & gs & H3 & H4) & H5). exists c'. split; [done|]. split; [congruence|]. split; [unfold normal; rewrite H3; auto|].
      rewrite H5. unfold rights in *. rewrite H2. cbn. unfold lefts. cbn. rewrite elems_nil, cat_l_app, cat_l_cons, cat_l_nil, elems_nil, !app_nil_r. cbn.
      by rewrite <- app_assoc.
    + exists (mkCur (f1 :: ps) Nil). split; [done|]. split; [done|]. split. { unfold normal. cbn. right. auto. }
      unfold lefts. cbn. rewrite elems_nil, cat_l_app, cat_l_cons, cat_l_nil, elems_nil, !app_nil_r. cbn. by rewrite <- app_assoc.
  - apply bool_decide_eq_false in Eh. destruct h as [|h]; [done|]. cbn [c_path c_sub].
    destruct (go_left_struct k (f1 :: ps)) as (fs0 & -> & Hc & Hl). eexists; split; [done|].
    split. { unfold root_of. cbn [c_path c_sub]. rewrite close_all_app, Hc. exact Hroot. }
    assert (Hne' : exists g gs, fs0 = g :: gs /\ f_r g <> []).
    { assert (Hk2 : wf (S h) (close_all fs0 Nil)) by by rewrite Hc. destruct (open_wf _ _ _ Hk2) as (h0 & E & Hctx & H0).
      assert (h0 = 0) as -> by (destruct h0; done). destruct fs0 as [|g gs]; [cbn in E; lia|]. exists g, gs. split; [done|].
      destruct Hctx as (_ & Hcg & _). apply Forall_cons in Hl as [Hl _]. unfold count in Hcg. rewrite Hl in Hcg. cbn in Hcg.
      intros E2. rewrite E2 in Hcg. cbn in Hcg. lia. }
    destruct Hne' as (g & gs & -> & Hg).
    split. { unfold normal. cbn. auto. }
    unfold lefts, rights. cbn [c_path c_sub]. rewrite before_app, after_app, elems_nil, (before_lefts _ Hl), !app_nil_r.
    split. { cbn. rewrite cat_l_app, cat_l_cons, cat_l_nil, <- !app_assoc. done. }
    assert (elems k = after (g :: gs)) as ->. { rewrite <- Hc, elems_root, (before_lefts _ Hl), elems_nil. done. }
    cbn. rewrite <- !app_assoc. done.
Qed.

Lemma climb_back_struct f t ps h : ctx h (f :: ps) -> before (f :: ps) <> [] ->
  exists fs0 p gs, f :: ps = fs0 ++ p :: gs /\ Forall (fun f => f_l f = []) fs0 /\ f_l p <> [] /\ climb_back f t ps = shift_back (mkCur (p :: gs) (close_all fs0 t)).
Proof.
  revert f t h. induction ps as [|p gs IH]; intros f t h Hc Hb; cbn [climb_back].
  - destruct (f_l f) eqn:E; [cbn in Hb; by rewrite E in Hb|]. exists [], f, []. split; [done|]. split; [constructor|]. split; [by rewrite E|]. done.
  - destruct (f_l f) eqn:E.
    + destruct Hc as (H1 & H2 & H3). destruct (IH p (close f t) (S h) H3) as (fs0 & p' & gs' & E1 & H4 & H5 & ->).
      { cbn in Hb. rewrite E in Hb. change (cat_l []) with (@nil V) in Hb. rewrite app_nil_r in Hb. exact Hb. }
      exists (f :: fs0), p', gs'. cbn. split; [by rewrite E1|]. split; [by constructor|]. done.
    + exists [], f, (p :: gs). split; [done|]. split; [constructor|]. split; [by rewrite E|]. done.
Qed.
(** operator--, and that ++ goes back *)
Theorem prev_spec H c L v : wf H (root_of c) -> normal c -> lefts c = L ++ [v] ->
  exists c', prev c = Ok c' /\ root_of c' = root_of c /\ normal c' /\ lefts c' = L /\ rights c' = v :: rights c /\ next c' = Ok c /\ (c_sub c <> Nil -> c_sub c' = Nil).
Proof.
  intros Hw Hn Hl. destruct c as [[|f ps] t].
  { cbn in Hn. subst. unfold lefts in Hl. cbn in Hl. rewrite elems_nil in Hl. by destruct L. }
  unfold normal, lefts, rights in *. cbn [c_path c_sub] in *.
  destruct (open_wf _ _ _ Hw) as (h & -> & Hctx & Ht). cbn [c_path c_sub] in Hctx, Ht.
  unfold prev. cbn [c_path c_sub]. rewrite (wf_leaf _ _ _ Ht). destruct (bool_decide (h = 0)) eqn:Eh.
  - apply bool_decide_eq_true in Eh as ->. destruct t; [|done]. rewrite elems_nil, app_nil_r in Hl.
    destruct (climb_back_struct f Nil ps 0 Hctx) as (fs0 & p & gs & Ep & Hf0 & Hpl & ->). { rewrite Hl. by destruct L. }
    unfold shift_back. cbn [c_path c_sub]. pose proof (unsnoc_spec (f_l p)) as Hu. destruct (unsnoc (f_l p)) as [[l [k w]]|]; [|done].
    eexists; split; [reflexivity|]. unfold root_of. cbn [c_path c_sub close_all].
    assert (Hcl : close (mkFrame (f_mark p) l ((w, close_all fs0 Nil) :: f_r p)) k = close p (close_all fs0 Nil)).
    { rewrite <- close_shift, <- Hu. by destruct p. }
    rewrite Hcl. split. { change (close_all ps (close f Nil)) with (close_all (f :: ps) Nil). rewrite Ep, close_all_app. done. }
    split; [cbn; auto|].
    assert (Hbw : L = before gs ++ cat_l l ++ elems k /\ v = w).
    { rewrite Ep, before_app, (before_lefts _ Hf0), app_nil_r in Hl. cbn in Hl. rewrite Hu, cat_l_app, cat_l_cons, cat_l_nil in Hl.
      rewrite !app_assoc in Hl. apply app_inj_tail in Hl as [Hl ->]. rewrite !app_assoc. auto. }
    destruct Hbw as [-> ->]. split; [by cbn; rewrite <- app_assoc|].
    split. { rewrite Ep, after_app. cbn [after f_r]. rewrite cat_r_cons, elems_root, (before_lefts _ Hf0), elems_nil. cbn. by rewrite <- app_assoc. }
    split; [|done]. unfold next, shift. cbn [c_path c_sub f_r f_l f_mark rbind]. rewrite <- Hu.
    replace (mkFrame (f_mark p) (f_l p) (f_r p)) with p by (by destruct p).
    destruct fs0 as [|f0 fs0].
    + cbn in Ep. simplify_eq. assert (wf 0 k) as Hk. { destruct Hctx as ((Hfl & _) & _). rewrite Hu in Hfl. apply Forall_app in Hfl as [_ Hfl]. by apply Forall_cons in Hfl as [? _]. }
      destruct k; [|done]. cbn [leaf c_path c_sub close_all]. destruct Hn as [Hn|[_ Hn]].
      * by rewrite climb_here.
      * by rewrite climb_none.
    + cbn in Ep. simplify_eq. cbn [ctx] in Hctx. destruct Hctx as (_ & _ & Hctx).
      assert (leaf k = false) as ->.
      { rewrite ctx_app in Hctx. destruct Hctx as [_ (( Hfl & _) & _)]. rewrite Hu in Hfl. apply Forall_app in Hfl as [_ Hfl]. apply Forall_cons in Hfl as [Hfl _]. cbn [fst] in Hfl.
        by rewrite (wf_leaf _ _ _ Hfl). }
      cbn [c_path c_sub]. rewrite go_left_close_all by done. cbn. done.
  - apply bool_decide_eq_false in Eh. destruct h as [|h]; [done|].
    destruct (go_right_struct (S h) t (f :: ps) Ht) as (fs0 & -> & Hc & Hf0). cbn [rbind].
    assert (Hk2 : wf (S h) (close_all fs0 Nil)) by by rewrite Hc. destruct (open_wf _ _ _ Hk2) as (h0 & E & Hctx0 & H0).
    assert (h0 = 0) as -> by (destruct h0; done). destruct fs0 as [|g gs]; [cbn in E; lia|].
    unfold shift_back. cbn [c_path c_sub app].
    pose proof (unsnoc_spec (f_l g)) as Hu. destruct (unsnoc (f_l g)) as [[l [k w]]|].
    2:{ destruct Hctx0 as (_ & Hcg & _). apply Forall_cons in Hf0 as [Hf0 _]. unfold count in Hcg. rewrite Hu, Hf0 in Hcg. cbn in Hcg. lia. }
    eexists; split; [reflexivity|]. unfold root_of. cbn [c_path c_sub close_all].
    assert (Hcl : close (mkFrame (f_mark g) l ((w, Nil) :: f_r g)) k = close g Nil).
    { rewrite <- close_shift, <- Hu. by destruct g. }
    rewrite Hcl. split. { rewrite close_all_app. cbn [close_all]. do 2 f_equal. exact Hc. }
    split; [cbn; auto|].
    assert (Hgk : k = Nil). { destruct Hctx0 as ((Hfl & _) & _). rewrite Hu in Hfl. apply Forall_app in Hfl as [_ Hfl]. apply Forall_cons in Hfl as [Hfl _]. by destruct k. }
    subst k.
    assert (Helems : elems t = before (g :: gs)). { rewrite <- Hc, elems_root, (after_rights _ Hf0), elems_nil. by rewrite !app_nil_r. }
    assert (Hbw : L = before (f :: ps) ++ before gs ++ cat_l l /\ v = w).
    { rewrite Helems in Hl. cbn [before] in Hl. rewrite Hu, cat_l_app, cat_l_cons, cat_l_nil, elems_nil in Hl. cbn in Hl.
      rewrite !app_assoc in Hl. apply app_inj_tail in Hl as [Hl ->]. cbn. rewrite !app_assoc in *. auto. }
    destruct Hbw as [-> ->]. split. { cbn [before f_l]. rewrite before_app, elems_nil, app_nil_r. cbn. by rewrite <- !app_assoc. }
    split. { cbn [after f_r]. rewrite after_app. apply Forall_cons in Hf0 as [Hg0 Hf0]. rewrite Hg0, (after_rights _ Hf0). cbn. done. }
    split; [|done]. unfold next, shift. cbn [c_path c_sub f_r f_l f_mark rbind leaf]. rewrite <- Hu.
    replace (mkFrame (f_mark g) (f_l g) (f_r g)) with g by (by destruct g).
    destruct Hn as [Hn|[Hn _]]; [|by rewrite Hn in Ht].
    pose proof (climb_through (g :: gs) f ps Nil Hf0) as Hct. cbn [app] in Hct. rewrite <- Hct, Hc. by rewrite climb_here.
Qed.

(** ** an iterator to the value number i of the tree t *)
Definition it t (i : nat) c : Prop := root_of c = t /\ normal c /\ length (lefts c) = i.
Lemma it_le t i c : it t i c -> i <= length (elems t).
Proof. intros (<- & _ & <-). rewrite root_elems, app_length. lia. Qed.
Lemma it_split t i c : it t i c -> lefts c = take i (elems t) /\ rights c = drop i (elems t).
Proof. intros (<- & _ & <-). rewrite root_elems, take_app, drop_app. done. Qed.
Lemma it_value t i c v : it t i c -> elems t !! i = Some v -> value c = Ok v.
Proof.
  intros Hi Hv. destruct (it_split _ _ _ Hi) as [_ Hr]. rewrite (drop_S _ v _ Hv) in Hr. eapply normal_value; eauto. apply Hi.
Qed.
Lemma it_next H t i c : wf H t -> it t i c -> i < length (elems t) -> exists c', next c = Ok c' /\ it t (S i) c'.
Proof.
  intros Hw Hi Hlt. destruct (it_split _ _ _ Hi) as [Hl Hr]. destruct (lookup_lt_is_Some_2 (elems t) i Hlt) as [v Hv].
  rewrite (drop_S _ v _ Hv) in Hr. destruct Hi as (<- & Hn & Hlen).
  destruct (next_spec H c v _ Hw Hn Hr) as (c' & E & H1 & H2 & H3 & H4). exists c'. split; [done|]. split; [done|]. split; [done|].
  rewrite H3, app_length. cbn. lia.
Qed.
Lemma it_prev H t i c : wf H t -> it t (S i) c -> exists c', prev c = Ok c' /\ it t i c' /\ next c' = Ok c.
Proof.
  intros Hw (<- & Hn & Hlen). pose proof (unsnoc_spec (lefts c)) as Hu. destruct (unsnoc (lefts c)) as [[L v]|].
  2:{ by rewrite Hu in Hlen. }
  destruct (prev_spec H c L v Hw Hn Hu) as (c' & E & H1 & H2 & H3 & H4 & H5 & _). exists c'. split; [done|]. split; [|done].
  split; [done|]. split; [done|]. rewrite Hu, app_length in Hlen. cbn in Hlen. rewrite H3. lia.
Qed.
Lemma it_zero H t c : wf H t -> it t 0 c -> c = go_left t [].
Proof.
  intros Hw (<- & Hn & Hlen). apply nil_length_inv in Hlen. unfold lefts in Hlen. apply app_eq_nil in Hlen as [Hb He].
  destruct c as [fs t]; cbn in *. unfold root_of in *. cbn [c_path c_sub] in *. destruct (open_wf _ _ _ Hw) as (h & -> & Hctx & Ht).
  rewrite go_left_close_all by (eapply before_nil_inv; eauto). rewrite app_nil_r.
  destruct h as [|h]; [destruct t; [done|done]|]. by apply wf_elems in Ht.
Qed.
Lemma it_begin H t : wf H t -> it t 0 (go_left t []).
Proof.
  intros Hw. destruct (go_left_struct t []) as (fs0 & -> & Hc & Hl). rewrite app_nil_r. split; [done|]. split.
  - unfold normal. cbn. destruct fs0 as [|f gs]; [done|]. left. rewrite <- Hc in Hw. destruct (open_wf _ _ _ Hw) as (h & -> & (_ & Hcnt & _) & _).
    apply Forall_cons in Hl as [Hl _]. unfold count in Hcnt. rewrite Hl in Hcnt. intros E. rewrite E in Hcnt. cbn in Hcnt. lia.
  - unfold lefts. cbn. by rewrite (before_lefts _ Hl), elems_nil.
Qed.
Lemma it_end H t : wf H t -> exists c, go_right (height t) t [] = Ok c /\ it t (length (elems t)) c.
Proof.
  intros Hw. destruct (go_right_struct H t [] Hw) as (fs0 & -> & Hc & Hr). rewrite app_nil_r. eexists; split; [done|].
  split; [done|]. split.
  - unfold normal. cbn. destruct fs0 as [|f gs]; [done|]. right. split; [done|]. unfold rights. cbn [c_path]. by apply after_rights.
  - rewrite <- Hc, elems_root, (after_rights _ Hr), elems_nil, !app_nil_r. unfold lefts. cbn. by rewrite elems_nil, app_nil_r.
Qed.
Lemma it_unique H t i c d : wf H t -> it t i c -> it t i d -> c = d.
Proof.
  intros Hw. revert c d. induction i as [|i IH]; intros c d Hc Hd.
  - by rewrite (it_zero H t c), (it_zero H t d).
  - destruct (it_prev H t i c Hw Hc) as (c' & _ & Hc' & En). destruct (it_prev H t i d Hw Hd) as (d' & _ & Hd' & En').
    rewrite (IH c' d') in En by auto. congruence.
Qed.
Lemma it_same H t i j c d : wf H t -> it t i c -> it t j d -> same c d = (i =? j).
Proof.
  intros Hw Hc Hd. unfold same. destruct (i =? j) eqn:E.
  - assert (i = j) as -> by lia. rewrite (it_unique H t j c d Hw Hc Hd). by apply bool_decide_eq_true.
  - apply bool_decide_eq_false. intros Hp. unfold pos_of in Hp. destruct c as [fs1 t1], d as [fs2 t2]. cbn in Hp.
    destruct Hc as (Hr1 & _ & H1), Hd as (Hr2 & _ & H2). unfold root_of in *. cbn in *.
    destruct (close_all_inj fs1 fs2 t1 t2 Hp) as [-> ->]; [congruence|]. lia.
Qed.
Lemma it_is_first H t c : wf H t -> (t <> Nil -> MK (lmarks t)) -> it t 0 c -> is_first c = true.
Proof.
  intros Hw HM Hc. rewrite (it_zero H t c Hw Hc). destruct (go_left_struct t []) as (fs0 & -> & Hcl & Hl). rewrite app_nil_r.
  unfold is_first. cbn. destruct fs0 as [|f gs]; [done|]. rewrite <- Hcl in Hw, HM. destruct (open_wf _ _ _ Hw) as (h & -> & Hctx & Ht).
  assert (h = 0) as -> by (destruct h; done). destruct Hctx as (Hf & Hcnt & Hgs). specialize (HM (close_all_not_nil _ _ _)).
  rewrite lmarks_root in HM by auto. apply Forall_cons in Hl as [_ Hl]. assert (mbefore gs = []) as E.
  { clear -Hl. induction Hl as [|g gs H _ IH]; cbn; [done|]. by rewrite IH, H. }
  rewrite E in HM. destruct HM as [HM _]. cbn in HM. apply HM.
Qed.
Lemma it_is_last H t c : wf H t -> (t <> Nil -> MK (lmarks t)) -> it t (length (elems t)) c -> is_last c = true.
Proof.
  intros Hw HM Hc. destruct (go_right_struct H t [] Hw) as (fs0 & E0 & Hcl & Hr). rewrite app_nil_r in E0.
  destruct (it_end H t Hw) as (c' & E1 & Hc'). rewrite E0 in E1. simplify_eq. rewrite (it_unique H _ _ _ _ Hw Hc Hc').
  unfold is_last. cbn. destruct fs0 as [|f gs]; [done|]. destruct (open_wf _ _ _ Hw) as (h & -> & Hctx & Ht).
  assert (h = 0) as -> by (destruct h; done). destruct Hctx as (Hf & Hcnt & Hgs). specialize (HM (close_all_not_nil _ _ _)).
  rewrite lmarks_root in HM by auto. apply Forall_cons in Hr as [_ Hr]. assert (mafter gs = []) as E.
  { clear -Hr. induction Hr as [|g gs H _ IH]; cbn; [done|]. by rewrite IH, H. }
  rewrite E in HM. destruct HM as [_ HM]. rewrite map_app, reverse_app in HM. cbn in HM. apply HM.
Qed.
End Iter.
