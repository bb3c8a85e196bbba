(** The invariant of the nodes, and that rebalancing, splitting and merging keep it with the order of the values. *)
From stdpp Require Import list.
From Coq Require Import Arith Lia ZifyBool ZifyNat.
From Verif.Common Require Import Res.
From Verif.BTree Require Import Tree TreeFacts.
Local Open Scope nat_scope.

Section Balance.
Context {V : Type} (kN : nat).
Implicit Types (t k : node V) (f p : frame V) (fs ps gs : list (frame V)) (v : V) (l : list (node V * V)) (r rest : list (V * node V)).

(** all leaves at depth h, and 1 to kN values in every node *)
Fixpoint wf (h : nat) t : Prop :=
  match h, t with
  | 0, Nil => True
  | S h', Node _ k0 rest => 1 <= length rest <= kN /\ wf h' k0 /\ Forall (fun x => wf h' (snd x)) rest
  | _, _ => False
  end.
Definition wff (h : nat) f : Prop := Forall (fun x => wf h (fst x)) (f_l f) /\ Forall (fun x => wf h (snd x)) (f_r f).
Fixpoint ctx (h : nat) ps : Prop :=
  match ps with [] => True | p :: gs => wff h p /\ 1 <= count p <= kN /\ ctx (S h) gs end.
(** leftmost is the first leaf and no other, rightmost_ the last *)
Definition first_true (l : list bool) : Prop := match l with [] => False | b :: l' => b = true /\ Forall (eq false) l' end.
Definition MK (l : list mark) : Prop := first_true (map m_first l) /\ first_true (reverse (map m_last l)).

Lemma wf_leaf h t : wf h t -> leaf t = bool_decide (h = 0).
Proof. destruct h, t; cbn; try done. Qed.
Lemma wf_height h t : wf h t -> height t = h.
Proof. revert t; induction h as [|h IH]; intros [|a k0 rest]; cbn; try done. intros (? & H & ?). f_equal. auto. Qed.
Lemma wf_close h f t : wf (S h) (close f t) <-> wff h f /\ wf h t /\ 1 <= count f <= kN.
Proof.
  unfold close. destruct (glue _ _ _) as [k rest] eqn:E. cbn. rewrite (glue_P (wf h) _ _ _ _ _ E).
  rewrite (glue_length _ _ _ _ _ E). unfold wff, count. tauto.
Qed.
Lemma wf_elems h t : wf (S h) t -> elems t <> [].
Proof. destruct t as [|a k0 [|[v k] rest]]; cbn; try done; [lia|]. intros _ H. rewrite elems_node, cat_r_cons in H. destruct (elems k0); done. Qed.

Lemma first_true_dup X a Y : first_true (X ++ a :: Y) -> first_true (X ++ a :: false :: Y).
Proof.
  destruct X as [|x X]; cbn; intros [? H]; split; auto. rewrite !Forall_app, !Forall_cons in *. tauto.
Qed.
Lemma first_true_drop X a b Y : first_true (X ++ a :: b :: Y) -> first_true (X ++ a :: Y).
Proof.
  destruct X as [|x X]; cbn; intros [? H]; split; auto; rewrite ?Forall_app, ?Forall_cons in *; tauto.
Qed.
Lemma first_true_or X a b Y : first_true (X ++ b :: a :: Y) -> first_true (X ++ (a || b) :: Y).
Proof.
  destruct X as [|x X]; cbn; intros [? H]; (split; [auto|]); rewrite ?Forall_app, ?Forall_cons in *.
  - subst. by rewrite orb_true_r.
  - tauto.
  - destruct H as (? & <- & <- & ?). auto.
Qed.
Lemma MK_split X m Y : MK (X ++ m :: Y) -> MK (X ++ mkMark (m_first m) false :: mkMark false (m_last m) :: Y).
Proof.
  unfold MK. rewrite !map_app; cbn. rewrite !reverse_app, !reverse_cons, <- !app_assoc. cbn. intros [H1 H2].
  split; by apply first_true_dup.
Qed.
Lemma MK_merge X a b Y : MK (X ++ a :: b :: Y) -> MK (X ++ mkMark (m_first a) (m_last a || m_last b) :: Y).
Proof.
  unfold MK. rewrite !map_app; cbn. rewrite !reverse_app, !reverse_cons, <- !app_assoc. cbn. intros [H1 H2].
  split; [by eapply first_true_drop|]. by apply first_true_or.
Qed.

(** ** one step at a node f and its parent p *)
(* the marks: at an inner node those on each side of the hole stay, at a leaf the order of all of them *)
Definition marks_step (h : nat) f p f' p' : Prop :=
  match h with
  | O => forall X Y, MK (X ++ mcat_l (f_l p) ++ f_mark f :: mcat_r (f_r p) ++ Y) -> MK (X ++ mcat_l (f_l p') ++ f_mark f' :: mcat_r (f_r p') ++ Y)
  | S _ => mcat_l (f_l p') ++ mcat_l (f_l f') = mcat_l (f_l p) ++ mcat_l (f_l f) /\ mcat_r (f_r f') ++ mcat_r (f_r p') = mcat_r (f_r f) ++ mcat_r (f_r p)
  end.
Definition vals_step f p f' p' : Prop :=
  cat_l (f_l p') ++ cat_l (f_l f') = cat_l (f_l p) ++ cat_l (f_l f) /\ cat_r (f_r f') ++ cat_r (f_r p') = cat_r (f_r f) ++ cat_r (f_r p).
Definition step (h : nat) f p f' p' : Prop := wff h f' /\ wff (S h) p' /\ vals_step f p f' p' /\ marks_step h f p f' p'.

Lemma lmarks_wf h a k0 rest : wf (S h) k0 -> lmarks (Node a k0 rest) = lmarks k0 ++ mcat_r rest.
Proof. intros H. apply lmarks_inner. by rewrite (wf_leaf _ _ H). Qed.

Lemma put_cut_spec h n L R ml mr pm pl pr :
  n < length L + length R ->
  Forall (fun x => wf h (fst x)) L -> Forall (fun x => wf h (snd x)) R ->
  Forall (fun x => wf (S h) (fst x)) pl -> Forall (fun x => wf (S h) (snd x)) pr ->
  (n < length L -> 1 <= n <= kN) -> (length L <= n -> 1 <= length L + length R - n - 1 <= kN) ->
  exists x f' p', cut_at n L R = Some x /\ put_cut x ml mr pm pl pr = (f', p') /\ wff h f' /\ wff (S h) p' /\
    cat_l (f_l p') ++ cat_l (f_l f') = cat_l pl ++ cat_l L /\ cat_r (f_r f') ++ cat_r (f_r p') = cat_r R ++ cat_r pr /\
    (match h with
     | O => mcat_l (f_l p') ++ f_mark f' :: mcat_r (f_r p') = mcat_l pl ++ ml :: mr :: mcat_r pr
     | S _ => mcat_l (f_l p') ++ mcat_l (f_l f') = mcat_l pl ++ mcat_l L /\ mcat_r (f_r f') ++ mcat_r (f_r p') = mcat_r R ++ mcat_r pr
     end) /\
    count p' = S (length pl + length pr) /\ f_mark p' = pm /\
    (if n <? length L then length (f_l f') = length L - n - 1 /\ f_r f' = R else f_l f' = L /\ length (f_r f') = n - length L).
Proof.
  intros Hn HL HR Hpl Hpr Hl Hr.
  destruct (cut_at_spec n L R Hn) as (x & -> & Hx).
  destruct x as [lk lrest v l r | l r v rk rrest]; cbn in Hx.
  - destruct Hx as (HLe & -> & Hlen). eexists _, _, _; split; [done|]; split; [reflexivity|]. cbn [f_l f_r f_mark].
    assert (HLlen : length L = S n + length l). { rewrite <- HLe, app_length, row_length. lia. }
    assert (n < length L) as HnL by lia. specialize (Hl HnL).
    rewrite <- HLe in HL. rewrite Forall_app, row_P in HL. destruct HL as [[Hlk Hlr] Hl'].
    split; [by split|]. split.
    { split; cbn; auto. rewrite Forall_app, Forall_cons. split; auto. split; auto. cbn. rewrite Hlen. auto. }
    split. { rewrite <- HLe, !cat_l_app, row_cat, cat_l_cons, cat_l_nil, elems_node, <- !app_assoc. done. }
    split; [done|]. split.
    { destruct h as [|h].
      - destruct lk; [|done]. rewrite mcat_l_app, mcat_l_cons, lmarks_leaf, <- app_assoc. reflexivity.
      - split; [|done]. rewrite <- HLe, !mcat_l_app, row_mcat, mcat_l_cons, (lmarks_wf h) by auto.
        unfold mcat_l at 2. cbn. by rewrite app_nil_r, <- !app_assoc. }
    split. { unfold count; cbn. rewrite app_length. cbn. lia. }
    split; [done|]. replace (n <? length L) with true by lia. split; [lia|done].
  - destruct Hx as (-> & HRe & Hlen). eexists _, _, _; split; [done|]; split; [reflexivity|]. cbn [f_l f_r f_mark].
    assert (HRlen : length R = length r + S (length rrest)). { rewrite <- HRe, app_length. cbn. lia. }
    rewrite <- HRe in HR. rewrite Forall_app, Forall_cons in HR. destruct HR as (Hr' & Hrk & Hrr). cbn in Hrk.
    assert (length L <= n) as HnL by lia. specialize (Hr HnL).
    split; [by split|]. split.
    { split; cbn; auto. rewrite Forall_cons. split; auto. cbn. split; auto. lia. }
    split; [done|].
    split. { rewrite <- HRe, !cat_r_app, !cat_r_cons, elems_node, <- !app_assoc. cbn. by rewrite <- !app_assoc. }
    split.
    { destruct h as [|h].
      - destruct rk; [|done]. rewrite mcat_r_cons, lmarks_leaf. reflexivity.
      - split; [done|]. rewrite <- HRe, !mcat_r_app, !mcat_r_cons, (lmarks_wf h) by auto. by rewrite <- !app_assoc. }
    split. { unfold count; cbn. lia. }
    split; [done|]. replace (n <? length L) with false by lia. split; [done|lia].
Qed.

Lemma left_of_spec h p : wff (S h) p ->
  match left_of p with
  | Some (pl, (sm, sk, srest), v) => f_l p = pl ++ [(Node sm sk srest, v)] /\ Forall (fun x => wf (S h) (fst x)) pl /\ wf (S h) (Node sm sk srest)
  | None => f_l p = []
  end.
Proof.
  intros [Hl _]. unfold left_of. pose proof (unsnoc_spec (f_l p)) as H. destruct (unsnoc (f_l p)) as [[pl [k v]]|]; [|done].
  rewrite H in Hl. apply Forall_app in Hl as [Hl Hk]. rewrite Forall_cons in Hk. destruct Hk as [Hk _]. cbn [fst] in Hk.
  destruct k; [done|]. auto.
Qed.
Lemma right_of_spec h p : wff (S h) p ->
  match right_of p with
  | Some (v, (sm, sk, srest), pr) => f_r p = (v, Node sm sk srest) :: pr /\ Forall (fun x => wf (S h) (snd x)) pr /\ wf (S h) (Node sm sk srest)
  | None => f_r p = []
  end.
Proof.
  intros [_ Hr]. unfold right_of. destruct (f_r p) as [|[v k] pr]; [done|]. rewrite Forall_cons in Hr. cbn in Hr. destruct Hr as [Hk Hr].
  destruct k; [done|]. auto.
Qed.

(* rebalance with the left sibling, its count becoming n *)
Lemma with_left_spec h n sm sk srest v f p pl :
  wff h f -> wff (S h) p -> f_l p = pl ++ [(Node sm sk srest, v)] -> Forall (fun x => wf (S h) (fst x)) pl -> wf (S h) (Node sm sk srest) ->
  1 <= n <= kN -> n <= length srest + count f ->
  (length srest + 1 + length (f_l f) <= n -> 1 <= length srest + count f - n <= kN) ->
  exists f' p', rebalance_with_left n sm sk srest v f (f_mark p) pl (f_r p) = Some (f', p') /\ step h f p f' p' /\ count p' = count p /\
    (if n <? length srest + 1 + length (f_l f)
     then length (f_l f') = length srest + length (f_l f) - n /\ f_r f' = f_r f
     else length (f_l f') = length srest + 1 + length (f_l f) /\ length (f_r f') = n - (length srest + 1 + length (f_l f))).
Proof.
  intros [Hfl Hfr] [_ Hpr] Hpl Hplw (Hsr & Hsk & Hsrest) Hn Hle Hright.
  set (L := row sk srest v ++ f_l f).
  assert (HLlen : length L = length srest + 1 + length (f_l f)). { unfold L. rewrite app_length, row_length. lia. }
  unfold count in *.
  destruct (put_cut_spec h n L (f_r f) sm (f_mark f) (f_mark p) pl (f_r p)) as (x & f' & p' & Hc & Hp & Hw1 & Hw2 & Hcl & Hcr & Hm & Hcnt & Hpm & Hpos); auto; try lia.
  { unfold L. rewrite Forall_app, row_P. auto. }
  unfold rebalance_with_left. fold L. rewrite Hc, Hp. exists f', p'. split; [done|]. split.
  - repeat split; try (by apply Hw1); try (by apply Hw2).
    + rewrite Hcl, Hpl. unfold L. rewrite !cat_l_app, row_cat, cat_l_cons, cat_l_nil, elems_node, <- !app_assoc. done.
    + done.
    + destruct h as [|h]; cbn.
      * intros X Y H. rewrite Hpl in H. destruct sk; [|done].
        replace (X ++ mcat_l (f_l p') ++ f_mark f' :: mcat_r (f_r p') ++ Y) with (X ++ (mcat_l (f_l p') ++ f_mark f' :: mcat_r (f_r p')) ++ Y) by (by rewrite <- !app_assoc).
        rewrite Hm. rewrite mcat_l_app, mcat_l_cons, lmarks_leaf in H. revert H. unfold mcat_l at 2. cbn. rewrite <- !app_assoc. cbn. auto.
      * destruct Hm as [Hm1 Hm2]. split; [|done]. rewrite Hm1, Hpl. unfold L. rewrite !mcat_l_app, row_mcat, mcat_l_cons, (lmarks_wf h) by auto.
        unfold mcat_l at 4. cbn. by rewrite app_nil_r, <- !app_assoc.
  - split. { unfold count. rewrite Hpl, app_length. cbn. unfold count in Hcnt. lia. }
    rewrite HLlen in Hpos. destruct (n <? _) eqn:E; destruct Hpos as [Hp1 Hp2].
    + split; [lia|done].
    + rewrite Hp1. split; lia.
Qed.
(* rebalance with the right sibling, the count of the node becoming n *)
Lemma with_right_spec h n sm sk srest v f p pr :
  wff h f -> wff (S h) p -> f_r p = (v, Node sm sk srest) :: pr -> Forall (fun x => wf (S h) (snd x)) pr -> wf (S h) (Node sm sk srest) ->
  n <= count f + length srest -> 1 <= count f + length srest - n <= kN ->
  (n < length (f_l f) -> 1 <= n <= kN) ->
  exists f' p', rebalance_with_right n f v sm sk srest (f_mark p) (f_l p) pr = Some (f', p') /\ step h f p f' p' /\ count p' = count p /\
    (if n <? length (f_l f)
     then length (f_l f') = length (f_l f) - n - 1 /\ length (f_r f') = length (f_r f) + 1 + length srest
     else f_l f' = f_l f /\ length (f_r f') = n - length (f_l f)).
Proof.
  intros [Hfl Hfr] [Hpl _] Hpr Hprw (Hsr & Hsk & Hsrest) Hle Hright Hn.
  set (R := f_r f ++ (v, sk) :: srest).
  assert (HRlen : length R = length (f_r f) + 1 + length srest). { unfold R. rewrite app_length. cbn. lia. }
  unfold count in *.
  destruct (put_cut_spec h n (f_l f) R (f_mark f) sm (f_mark p) (f_l p) pr) as (x & f' & p' & Hc & Hp & Hw1 & Hw2 & Hcl & Hcr & Hm & Hcnt & Hpm & Hpos); auto; try lia.
  { unfold R. rewrite Forall_app, Forall_cons. auto. }
  unfold rebalance_with_right. fold R. rewrite Hc, Hp. exists f', p'. split; [done|]. split.
  - repeat split; try (by apply Hw1); try (by apply Hw2).
    + done.
    + rewrite Hcr, Hpr. unfold R. rewrite !cat_r_app, !cat_r_cons, elems_node, <- !app_assoc. cbn. by rewrite <- !app_assoc.
    + destruct h as [|h]; cbn.
      * intros X Y H. rewrite Hpr in H. destruct sk; [|done].
        replace (X ++ mcat_l (f_l p') ++ f_mark f' :: mcat_r (f_r p') ++ Y) with (X ++ (mcat_l (f_l p') ++ f_mark f' :: mcat_r (f_r p')) ++ Y) by (by rewrite <- !app_assoc).
        rewrite Hm. rewrite mcat_r_cons, lmarks_leaf in H. revert H. rewrite <- !app_assoc. cbn. auto.
      * destruct Hm as [Hm1 Hm2]. split; [done|]. rewrite Hm2, Hpr. unfold R. rewrite !mcat_r_app, !mcat_r_cons, (lmarks_wf h) by auto.
        by rewrite <- !app_assoc.
  - split. { unfold count. rewrite Hpr. cbn. unfold count in Hcnt. lia. }
    destruct (n <? _) eqn:E; destruct Hpos as [Hp1 Hp2].
    + rewrite Hp2. split; lia.
    + rewrite Hp1. split; [done|lia].
Qed.
(* split: a full node; the parent needs room *)
Lemma split_spec h f p :
  3 <= kN -> wff h f -> wff (S h) p -> count f = kN ->
  exists f' p', split kN (bool_decide (h = 0)) f p = Some (f', p') /\ step h f p f' p' /\ count p' = S (count p) /\ count f' < kN.
Proof.
  intros HkN [Hfl Hfr] [Hpl Hpr] Hcnt0. unfold split.
  set (pos := length (f_l f)).
  set (dest := if pos =? 0 then count f - 1 else if pos =? kN then 0 else count f / 2).
  set (n := count f - dest - 1).
  set (ml := if bool_decide (h = 0) then _ else _). set (mr := if bool_decide (h = 0) then _ else _).
  assert (Hd : dest < kN /\ (n < pos -> 1 <= n) /\ (pos <= n -> 1 <= dest)).
  { unfold n, dest. rewrite Hcnt0. unfold count in Hcnt0. fold pos in Hcnt0.
    pose proof (Nat.div_mod kN 2 ltac:(lia)). pose proof (Nat.mod_upper_bound kN 2 ltac:(lia)).
    destruct (pos =? 0) eqn:E1; [lia|]. destruct (pos =? kN) eqn:E2; lia. }
  assert (Hn : n = kN - dest - 1) by (unfold n; lia).
  unfold count in Hcnt0.
  destruct (put_cut_spec h n (f_l f) (f_r f) ml mr (f_mark p) (f_l p) (f_r p)) as (x & f' & p' & Hc & Hp & Hw1 & Hw2 & Hcl & Hcr & Hm & Hcnt & Hpm & Hpos); auto; fold pos; try lia.
  rewrite Hc, Hp. exists f', p'. split; [done|]. split; [|split].
  - repeat split; try (by apply Hw1); try (by apply Hw2); try done.
    destruct h as [|h]; cbn.
    + intros X Y H.
      replace (X ++ mcat_l (f_l p') ++ f_mark f' :: mcat_r (f_r p') ++ Y) with (X ++ (mcat_l (f_l p') ++ f_mark f' :: mcat_r (f_r p')) ++ Y) by (by rewrite <- !app_assoc).
      rewrite Hm. unfold ml, mr. rewrite bool_decide_eq_true_2 by done. rewrite <- !app_assoc. cbn.
      rewrite app_assoc. apply MK_split. by rewrite <- app_assoc.
    + done.
  - unfold count in *. lia.
  - unfold count. destruct (n <? _) eqn:E; destruct Hpos as [Hp1 Hp2].
    + rewrite Hp1, Hp2. fold pos. lia.
    + rewrite Hp1, Hp2. fold pos. lia.
Qed.

(** ** rebalance_or_split *)
Lemma div12 a (b : bool) : 1 <= a -> 1 <= Nat.max 1 (a / (if b then 2 else 1)) <= a.
Proof.
  intros H. assert (Hq : a / (if b then 2 else 1) <= a) by (apply Nat.div_le_upper_bound; destruct b; lia).
  revert Hq. generalize (a / (if b then 2 else 1)). lia.
Qed.
Lemma try_left_spec h f p : 3 <= kN -> wff h f -> wff (S h) p -> count f = kN ->
  match try_left kN f p with Some (f', p') => step h f p f' p' /\ count p' = count p /\ count f' < kN | None => True end.
Proof.
  intros HkN Hf Hp Hc. unfold try_left. pose proof (left_of_spec h p Hp) as HL.
  destruct (left_of p) as [[[pl [[sm sk] srest]] v]|]; [|done]. destruct HL as (HL & Hpl & Hs).
  destruct (length srest <? kN) eqn:E1; [|done].
  set (d := if length (f_l f) <? kN then 2 else 1). set (mv := Nat.max 1 ((kN - length srest) / d)).
  assert (Hmv : 1 <= mv <= kN - length srest) by (apply div12; lia).
  assert (1 <= length srest <= kN) by apply Hs.
  destruct ((mv <=? length (f_l f)) || (length srest + mv <? kN)) eqn:E2; [|done].
  destruct (with_left_spec h (length srest + mv) sm sk srest v f p pl) as (f' & p' & -> & Hst & Hcp & Hpos); auto; try lia.
  split; [done|]. split; [done|].
  unfold count in *. destruct (length srest + mv <? length srest + 1 + length (f_l f)) eqn:E3; destruct Hpos as [H1 H2].
  - rewrite H1, H2. lia.
  - lia.
Qed.
Lemma try_right_spec h f p : 3 <= kN -> wff h f -> wff (S h) p -> count f = kN ->
  match try_right kN f p with Some (f', p') => step h f p f' p' /\ count p' = count p /\ count f' < kN | None => True end.
Proof.
  intros HkN Hf Hp Hc. unfold try_right. pose proof (right_of_spec h p Hp) as HR.
  destruct (right_of p) as [[[v [[sm sk] srest]] pr]|]; [|done]. destruct HR as (HR & Hpr & Hs).
  destruct (length srest <? kN) eqn:E1; [|done].
  set (d := if 0 <? length (f_l f) then 2 else 1). set (mv := Nat.max 1 ((kN - length srest) / d)).
  assert (Hmv : 1 <= mv <= kN - length srest) by (apply div12; lia).
  assert (1 <= length srest <= kN) by apply Hs.
  destruct ((length (f_l f) <=? count f - mv) || (length srest + mv <? kN)) eqn:E2; [|done].
  destruct (with_right_spec h (count f - mv) sm sk srest v f p pr) as (f' & p' & -> & Hst & Hcp & Hpos); auto; try lia.
  split; [done|]. split; [done|].
  unfold count in *. destruct (_ - mv <? _) eqn:E3; destruct Hpos as [H1 H2].
  - rewrite H1, H2. lia.
  - rewrite H1, H2. lia.
Qed.
Definition marks_kept (h : nat) f ps f' ps' : Prop :=
  match h with
  | O => MK (mbefore ps ++ f_mark f :: mafter ps) -> MK (mbefore ps' ++ f_mark f' :: mafter ps')
  | S _ => mbefore (f' :: ps') = mbefore (f :: ps) /\ mafter (f' :: ps') = mafter (f :: ps)
  end.
Definition vals_kept f ps f' ps' : Prop := before (f' :: ps') = before (f :: ps) /\ after (f' :: ps') = after (f :: ps).
Lemma step_kept h f p f' p' gs : step h f p f' p' -> wff h f' /\ wff (S h) p' /\ vals_kept f (p :: gs) f' (p' :: gs) /\ marks_kept h f (p :: gs) f' (p' :: gs).
Proof.
  intros (Hw & Hw' & [Hb Ha] & Hm). split; [done|]. split; [done|]. split.
  - split; cbn; [rewrite <- !app_assoc; by rewrite Hb | rewrite !app_assoc; by rewrite Ha].
  - destruct h as [|h]; cbn in *.
    + intros H. rewrite <- app_assoc in *. auto.
    + destruct Hm as [Hm1 Hm2]. split; [rewrite <- !app_assoc; by rewrite Hm1 | rewrite !app_assoc; by rewrite Hm2].
Qed.
Lemma vals_kept_trans f ps p f' ps' p' g q : vals_kept p ps p' ps' -> vals_kept f (p' :: ps') g q -> vals_kept f (p :: ps) g q.
Proof. intros [H1 H2] [H3 H4]. cbn in *. split; cbn; rewrite ?H3, ?H4; cbn; by rewrite ?H1, ?H2. Qed.
Theorem rebalance_or_split_spec h f ps : 3 <= kN -> wff h f -> ctx (S h) ps -> count f = kN ->
  exists f' ps', rebalance_or_split kN (bool_decide (h = 0)) f ps = Ok (f' :: ps') /\ wff h f' /\ count f' < kN /\ ctx (S h) ps' /\ ps' <> [] /\
    vals_kept f ps f' ps' /\ marks_kept h f ps f' ps'.
Proof.
  intros HkN. revert h f. induction ps as [|p gs IH]; intros h f Hf Hctx Hc; cbn.
  - destruct (split_spec h f (mkFrame plain [] [])) as (f' & p' & E & Hst & Hcp & Hcf); auto. { split; apply Forall_nil; done. }
    rewrite E. cbn. destruct (step_kept h f _ f' p' [] Hst) as (Hw & Hw' & Hv & Hm). exists f', [p']. split; [done|].
    split; [done|]. split; [done|]. split. { cbn. split; [done|]. cbn in Hcp. lia. }
    split; [done|]. split; [exact Hv|]. destruct h; [|exact Hm]. intros H. apply Hm. cbn. rewrite app_nil_r. done.
  - destruct Hctx as (Hp & Hcp & Hgs).
    pose proof (try_left_spec h f p HkN Hf Hp Hc) as HL. destruct (try_left kN f p) as [[f' p']|].
    { destruct HL as (Hst & Hcp' & Hcf). destruct (step_kept h f p f' p' gs Hst) as (Hw & Hw' & Hv & Hm).
      exists f', (p' :: gs). cbn. repeat split; auto; try apply Hw; try apply Hw'; try apply Hv; lia. }
    pose proof (try_right_spec h f p HkN Hf Hp Hc) as HR. destruct (try_right kN f p) as [[f' p']|].
    { destruct HR as (Hst & Hcp' & Hcf). destruct (step_kept h f p f' p' gs Hst) as (Hw & Hw' & Hv & Hm).
      exists f', (p' :: gs). cbn. repeat split; auto; try apply Hw; try apply Hw'; try apply Hv; lia. }
    destruct (count p =? kN) eqn:E.
    + destruct (IH (S h) p Hp Hgs) as (p2 & gs2 & E2 & Hp2 & Hc2 & Hctx2 & _ & Hv2 & Hm2); [lia|].
      change (bool_decide (S h = 0)) with false in E2. rewrite E2. cbn.
      destruct (split_spec h f p2) as (f' & p' & E3 & Hst & Hcp' & Hcf); auto. rewrite E3. cbn.
      destruct (step_kept h f p2 f' p' gs2 Hst) as (Hw & Hw' & Hv & Hm).
      exists f', (p' :: gs2). split; [done|]. split; [done|]. split; [done|]. split. { cbn. repeat split; auto; try apply Hw'; lia. }
      split; [done|]. split. { eapply vals_kept_trans; eauto. }
      destruct Hm2 as [Hb2 Ha2]. destruct h; cbn in *.
      * intros H. apply Hm. rewrite Hb2, Ha2. done.
      * rewrite Hb2, Ha2 in Hm. done.
    + cbn. destruct (split_spec h f p) as (f' & p' & E3 & Hst & Hcp' & Hcf); auto. rewrite E3. cbn.
      destruct (step_kept h f p f' p' gs Hst) as (Hw & Hw' & Hv & Hm).
      exists f', (p' :: gs). split; [done|]. split; [done|]. split; [done|]. split. { cbn. repeat split; auto; try apply Hw'; lia. }
      split; [done|]. split; [exact Hv|]. exact Hm.
Qed.

(** ** rebalance_after_delete *)
Lemma merge_left_spec h f p : wff h f -> wff (S h) p ->
  match merge_left kN (bool_decide (h = 0)) f p with
  | Some (f', p') => step h f p f' p' /\ S (count p') = count p /\ 1 <= count f' <= kN /\ f_r f' = f_r f /\ f_l f' <> []
  | None => match left_of p with Some (_, (_, _, srest), _) => kN < 1 + length srest + count f | None => True end
  end.
Proof.
  intros [Hfl Hfr] Hp. unfold merge_left. pose proof (left_of_spec h p Hp) as HL.
  destruct (left_of p) as [[[pl [[sm sk] srest]] v]|]; [|done]. destruct HL as (HL & Hpl & (Hsr & Hsk & Hsrest)).
  destruct (1 + length srest + count f <=? kN) eqn:E; [|lia].
  split; [split; [|split; [|split]]|split; [|split; [|split]]]; cbn [f_l f_r f_mark].
  - split; cbn; auto. rewrite Forall_app, row_P. auto.
  - split; cbn; auto. apply Hp.
  - split; cbn; [|done]. rewrite HL, !cat_l_app, row_cat, cat_l_cons, cat_l_nil, elems_node, <- !app_assoc. done.
  - destruct h as [|h]; cbn.
    + intros X Y H. rewrite HL in H. destruct sk; [|done]. rewrite mcat_l_app, mcat_l_cons, lmarks_leaf in H. revert H. unfold mcat_l at 2.
      cbn. rewrite <- !app_assoc. cbn. rewrite !app_assoc. apply MK_merge.
    + split; [|done]. rewrite HL, !mcat_l_app, row_mcat, mcat_l_cons, (lmarks_wf h) by auto. unfold mcat_l at 4. cbn. by rewrite app_nil_r, <- !app_assoc.
  - unfold count; cbn. rewrite HL, app_length. cbn. lia.
  - unfold count in *; cbn. rewrite app_length, row_length. lia.
  - done.
  - destruct srest as [|[]]; cbn; done.
Qed.
Lemma merge_right_spec h f p : wff h f -> wff (S h) p ->
  match merge_right kN (bool_decide (h = 0)) f p with
  | Some (f', p') => step h f p f' p' /\ S (count p') = count p /\ 1 <= count f' <= kN /\ f_l f' = f_l f /\ f_r f' <> []
  | None => match right_of p with Some (_, (_, _, srest), _) => kN < 1 + length srest + count f | None => True end
  end.
Proof.
  intros [Hfl Hfr] Hp. unfold merge_right. pose proof (right_of_spec h p Hp) as HR.
  destruct (right_of p) as [[[v [[sm sk] srest]] pr]|]; [|done]. destruct HR as (HR & Hpr & (Hsr & Hsk & Hsrest)).
  destruct (1 + count f + length srest <=? kN) eqn:E; [|lia].
  split; [split; [|split; [|split]]|split; [|split; [|split]]]; cbn [f_l f_r f_mark].
  - split; cbn; auto. rewrite Forall_app, Forall_cons. auto.
  - split; cbn; auto. apply Hp.
  - split; cbn; [done|]. rewrite HR, !cat_r_app, !cat_r_cons, elems_node, <- !app_assoc. cbn. by rewrite <- !app_assoc.
  - destruct h as [|h]; cbn.
    + intros X Y H. rewrite HR in H. destruct sk; [|done]. rewrite mcat_r_cons, lmarks_leaf in H. revert H.
      cbn. rewrite !app_assoc. cbn. apply MK_merge.
    + split; [done|]. rewrite HR, !mcat_r_app, !mcat_r_cons, (lmarks_wf h) by auto. by rewrite <- !app_assoc.
  - unfold count; cbn. rewrite HR. cbn. lia.
  - unfold count in *; cbn. rewrite app_length. cbn. lia.
  - done.
  - by destruct (f_r f).
Qed.
(* [f_r f' = [] -> f_r f = []] and the like: the returned iterator is at the end of its node only if it was *)
Lemma take_right_spec h f p : wff h f -> wff (S h) p -> count f < kMin kN ->
  match take_right kN f p with
  | Some (f', p') => step h f p f' p' /\ count p' = count p /\ 1 <= count f' <= kN /\ f_l f' = f_l f /\ f_r f' <> []
  | None => count f = 0 -> match right_of p with Some (_, (_, _, srest), _) => length srest <= kMin kN | None => True end
  end.
Proof.
  intros Hf Hp Hc. unfold take_right. pose proof (right_of_spec h p Hp) as HR.
  destruct (right_of p) as [[[v [[sm sk] srest]] pr]|]; [|done]. destruct HR as (HR & Hpr & Hs).
  assert (1 <= length srest <= kN) by apply Hs.
  destruct ((kMin kN <? length srest) && ((count f =? 0) || (0 <? length (f_l f)))) eqn:E; [|lia].
  set (mv := Nat.min ((length srest - count f) / 2) (length srest - 1)).
  assert (Hmv : 1 <= mv <= length srest - 1).
  { unfold mv. assert (1 <= (length srest - count f) / 2) by (apply Nat.div_le_lower_bound; lia). lia. }
  assert (Hl : length (f_l f) <= count f) by (unfold count; lia).
  assert (Hmv2 : mv <= (length srest - count f) / 2) by (unfold mv; lia).
  assert (Hk : kMin kN <= kN) by (unfold kMin; apply Nat.div_le_upper_bound; lia).
  assert (Hd : (length srest - count f) / 2 * 2 <= length srest - count f) by (pose proof (Nat.mul_div_le (length srest - count f) 2); lia).
  clearbody mv.
  destruct (with_right_spec h (count f + mv) sm sk srest v f p pr) as (f' & p' & -> & Hst & Hcp & Hpos); auto; try lia.
  split; [done|]. split; [done|]. replace (_ <? _) with false in Hpos by lia. destruct Hpos as [H1 H2].
  split; [|split]; auto.
  - unfold count in *. rewrite H1, H2. lia.
  - intros H3. rewrite H3 in H2. cbn in H2. lia.
Qed.
Lemma take_left_spec h f p : wff h f -> wff (S h) p -> count f < kMin kN ->
  match take_left kN f p with
  | Some (f', p') => step h f p f' p' /\ count p' = count p /\ 1 <= count f' <= kN /\ f_r f' = f_r f /\ f_l f' <> []
  | None => count f = 0 -> match left_of p with Some (_, (_, _, srest), _) => length srest <= kMin kN | None => True end
  end.
Proof.
  intros Hf Hp Hc. unfold take_left. pose proof (left_of_spec h p Hp) as HL.
  destruct (left_of p) as [[[pl [[sm sk] srest]] v]|]; [|done]. destruct HL as (HL & Hpl & Hs).
  assert (1 <= length srest <= kN) by apply Hs.
  destruct ((kMin kN <? length srest) && ((count f =? 0) || (length (f_l f) <? count f))) eqn:E; [|lia].
  set (mv := Nat.min ((length srest - count f) / 2) (length srest - 1)).
  assert (Hmv : 1 <= mv <= length srest - 1).
  { unfold mv. assert (1 <= (length srest - count f) / 2) by (apply Nat.div_le_lower_bound; lia). lia. }
  assert (Hl : length (f_l f) <= count f) by (unfold count; lia).
  assert (Hmv2 : mv <= (length srest - count f) / 2) by (unfold mv; lia).
  assert (Hk : kMin kN <= kN) by (unfold kMin; apply Nat.div_le_upper_bound; lia).
  assert (Hd : (length srest - count f) / 2 * 2 <= length srest - count f) by (pose proof (Nat.mul_div_le (length srest - count f) 2); lia).
  clearbody mv.
  destruct (with_left_spec h (length srest - mv) sm sk srest v f p pl) as (f' & p' & -> & Hst & Hcp & Hpos); auto; try lia.
  split; [done|]. split; [done|]. replace (_ <? _) with true in Hpos by lia. destruct Hpos as [H1 H2].
  split; [|split]; auto.
  - unfold count in *. rewrite H1, H2. lia.
  - intros H3. rewrite H3 in H1. cbn in H1. lia.
Qed.
(* what happens to the position: it is at the end of the node afterwards only if it was before, and then not alone *)
Definition at_end_kept f f' : Prop := (f_r f' = [] -> f_r f = []) /\ (f_r f' = [] -> f_l f' <> []).
Lemma try_merge_spec h f p b f' p' : 2 <= kN -> wff h f -> wff (S h) p -> count f < kMin kN -> 1 <= count p ->
  try_merge_or_rebalance kN (bool_decide (h = 0)) f p = (b, (f', p')) ->
  step h f p f' p' /\ count p = (if b then S (count p') else count p') /\ 1 <= count f' <= kN /\ at_end_kept f f'.
Proof.
  intros HkN Hf Hp Hc Hcp. unfold try_merge_or_rebalance.
  assert (Hk : kMin kN * 2 <= kN) by (unfold kMin; pose proof (Nat.mul_div_le kN 2); lia).
  pose proof (merge_left_spec h f p Hf Hp) as H1. destruct (merge_left _ _ _ _) as [[f1 p1]|].
  { intros H; simplify_eq. destruct H1 as (? & ? & ? & E & ?). repeat split; auto; try lia; try (by apply H). by rewrite E. }
  pose proof (merge_right_spec h f p Hf Hp) as H2. destruct (merge_right _ _ _ _) as [[f1 p1]|].
  { intros H; simplify_eq. destruct H2 as (? & ? & ? & E & ?). repeat split; auto; try lia; try (by apply H); done. }
  pose proof (take_right_spec h f p Hf Hp Hc) as H3. destruct (take_right _ _ _) as [[f1 p1]|].
  { intros H; simplify_eq. destruct H3 as (? & ? & ? & E & ?). repeat split; auto; try lia; try (by apply H); done. }
  pose proof (take_left_spec h f p Hf Hp Hc) as H4. destruct (take_left _ _ _) as [[f1 p1]|].
  { intros H; simplify_eq. destruct H4 as (? & ? & ? & E & ?). repeat split; auto; try lia; try (by apply H). by rewrite E. }
  intros H; simplify_eq.
  assert (Hnz : count f' <> 0).
  { intros Hz. specialize (H3 Hz). specialize (H4 Hz). unfold count in Hcp.
    pose proof (left_of_spec h p' Hp) as HL. pose proof (right_of_spec h p' Hp) as HR.
    destruct (left_of p') as [[[pl [[sm sk] srest]] v]|].
    - lia.
    - destruct (right_of p') as [[[v [[sm sk] srest]] pr]|].
      + lia.
      + rewrite HL, HR in Hcp. cbn in Hcp. lia. }
  split; [|split; [done|split; [lia|split; [done|]]]].
  - split; [done|]. split; [done|]. split; [done|]. destruct h; cbn; auto.
  - intros E E2. apply Hnz. unfold count. by rewrite E, E2.
Qed.
(* the frames of the parents only: the hole is a node of height S h *)
Lemma rebalance_up_ctx h f ps : 3 <= kN -> wff (S h) f -> count f <= kN -> ctx (S (S h)) ps ->
  let fs' := rebalance_up kN false f ps in
  ctx (S h) fs' /\ before fs' = before (f :: ps) /\ after fs' = after (f :: ps) /\ mbefore fs' = mbefore (f :: ps) /\ mafter fs' = mafter (f :: ps).
Proof.
  intros HkN. revert h f. induction ps as [|p gs IH]; intros h f Hf Hc Hctx; cbn zeta.
  - cbn [rebalance_up]. destruct (count f =? 0) eqn:E.
    + unfold count in E. assert (f_l f = []) as E1 by (destruct (f_l f); [done|cbn in E; lia]). assert (f_r f = []) as E2 by (destruct (f_r f); [done|cbn in E; lia]).
      cbn. rewrite E1, E2. done.
    + cbn [ctx]. split; [|done]. split; [done|]. split; [|done]. lia.
  - cbn [rebalance_up]. destruct (kMin kN <=? count f) eqn:E.
    + cbn [ctx] in *. assert (1 <= kMin kN). { unfold kMin. apply Nat.div_le_lower_bound; lia. }
      split; [|done]. split; [done|]. split; [lia|done].
    + destruct Hctx as (Hp & Hcp & Hgs).
      destruct (try_merge_or_rebalance kN false f p) as [b [f' p']] eqn:E2.
      destruct (try_merge_spec (S h) f p b f' p') as (Hst & Hcp' & Hcf' & _); auto; try lia.
      destruct (step_kept _ f p f' p' gs Hst) as (Hw & Hw' & [Hb Ha] & [Hmb Hma]).
      destruct b.
      * destruct (IH (S h) p' Hw' ltac:(lia) Hgs) as (Hc1 & Hb1 & Ha1 & Hmb1 & Hma1).
        cbn [ctx before after mbefore mafter] in *. rewrite Hb1, Ha1, Hmb1, Hma1. repeat split; auto; try apply Hw; lia.
      * cbn [ctx] in *. repeat split; auto; try apply Hw; try apply Hw'; lia.
Qed.
(** the loop from the node f, at any height *)
Theorem rebalance_up_spec h f ps : 3 <= kN -> wff h f -> count f <= kN -> ctx (S h) ps ->
  match rebalance_up kN (bool_decide (h = 0)) f ps with
  | [] => ps = [] /\ f_l f = [] /\ f_r f = []
  | f' :: ps' => wff h f' /\ 1 <= count f' <= kN /\ ctx (S h) ps' /\ vals_kept f ps f' ps' /\ marks_kept h f ps f' ps' /\ at_end_kept f f' /\
                 (ps' <> [] -> ps <> [])
  end.
Proof.
  intros HkN Hf Hc Hctx. destruct ps as [|p gs]; cbn [rebalance_up].
  - destruct (count f =? 0) eqn:E.
    + unfold count in E. split; [done|]. split; [destruct (f_l f); [done|cbn in E; lia]|destruct (f_r f); [done|cbn in E; lia]].
    + repeat split; auto; try apply Hf; try lia. { destruct h; cbn; auto. }
      intros E1 E2. unfold count in E. rewrite E1, E2 in E. done.
  - destruct (kMin kN <=? count f) eqn:E.
    + assert (1 <= kMin kN). { unfold kMin. apply Nat.div_le_lower_bound; lia. }
      repeat split; auto; try apply Hf; try apply Hctx; try lia. { destruct h; cbn; auto. }
      intros E1 E2. unfold count in E. rewrite E1, E2 in E. cbn [length] in E. lia.
    + destruct Hctx as (Hp & Hcp & Hgs).
      destruct (try_merge_or_rebalance kN _ f p) as [b [f' p']] eqn:E2.
      destruct (try_merge_spec h f p b f' p') as (Hst & Hcp' & Hcf' & Hae); auto; try lia.
      destruct (step_kept _ f p f' p' gs Hst) as (Hw & Hw' & Hv & Hm).
      destruct b.
      * pose proof (rebalance_up_ctx h p' gs HkN Hw' ltac:(lia) Hgs) as (Hc1 & Hb1 & Ha1 & Hmb1 & Hma1).
        split; [done|]. split; [done|]. split; [done|]. split.
        { destruct Hv as [Hv1 Hv2]. split; cbn [before after] in *; by rewrite ?Hb1, ?Ha1. }
        split; [|split; done]. destruct h; cbn [marks_kept mbefore mafter] in *; by rewrite Hmb1, Hma1.
      * split; [done|]. split; [done|]. split; [|done]. cbn [ctx]. split; [done|]. split; [lia|done].
Qed.
End Balance.
