(** Facts about opened nodes, rows and cuts: what the functions of Tree.v keep. *)
From stdpp Require Import list.
From Coq Require Import Arith Lia ZifyBool ZifyNat.
From Verif.Common Require Import Res.
From Verif.BTree Require Import Tree.
Local Open Scope nat_scope.

Section Facts.
Context {V : Type}.
Implicit Types (t k : node V) (f p : frame V) (fs ps : list (frame V)) (v : V) (l : list (node V * V)) (r rest : list (V * node V)).

(** the values of a node in order, and of the parts of an opened node *)
Fixpoint elems t : list V :=
  match t with Nil => [] | Node _ k0 rest => elems k0 ++ flat_map (fun x => fst x :: elems (snd x)) rest end.
Definition cat_l l : list V := flat_map (fun x => elems (fst x) ++ [snd x]) l.
Definition cat_r r : list V := flat_map (fun x => fst x :: elems (snd x)) r.
Fixpoint before fs : list V := match fs with [] => [] | f :: ps => before ps ++ cat_l (f_l f) end.
Fixpoint after fs : list V := match fs with [] => [] | f :: ps => cat_r (f_r f) ++ after ps end.
(** the marks of the leaves in order *)
Fixpoint lmarks t : list mark :=
  match t with Nil => [] | Node a k0 rest => if leaf k0 then [a] else lmarks k0 ++ flat_map (fun x => lmarks (snd x)) rest end.
Definition mcat_l l : list mark := flat_map (fun x => lmarks (fst x)) l.
Definition mcat_r r : list mark := flat_map (fun x => lmarks (snd x)) r.
Fixpoint mbefore fs : list mark := match fs with [] => [] | f :: ps => mbefore ps ++ mcat_l (f_l f) end.
Fixpoint mafter fs : list mark := match fs with [] => [] | f :: ps => mcat_r (f_r f) ++ mafter ps end.

Lemma cat_l_app l1 l2 : cat_l (l1 ++ l2) = cat_l l1 ++ cat_l l2. Proof. apply flat_map_app. Qed.
Lemma cat_r_app r1 r2 : cat_r (r1 ++ r2) = cat_r r1 ++ cat_r r2. Proof. apply flat_map_app. Qed.
Lemma mcat_l_app l1 l2 : mcat_l (l1 ++ l2) = mcat_l l1 ++ mcat_l l2. Proof. apply flat_map_app. Qed.
Lemma mcat_r_app r1 r2 : mcat_r (r1 ++ r2) = mcat_r r1 ++ mcat_r r2. Proof. apply flat_map_app. Qed.
Lemma cat_l_cons k v l : cat_l ((k, v) :: l) = elems k ++ v :: cat_l l.
Proof. unfold cat_l; cbn. by rewrite <- app_assoc. Qed.
Lemma cat_r_cons v k r : cat_r ((v, k) :: r) = v :: elems k ++ cat_r r. Proof. reflexivity. Qed.
Lemma cat_l_nil : cat_l [] = []. Proof. reflexivity. Qed.
Lemma cat_r_nil : cat_r [] = []. Proof. reflexivity. Qed.
Lemma mcat_l_cons k v l : mcat_l ((k, v) :: l) = lmarks k ++ mcat_l l. Proof. reflexivity. Qed.
Lemma mcat_r_cons v k r : mcat_r ((v, k) :: r) = lmarks k ++ mcat_r r. Proof. reflexivity. Qed.
Lemma elems_node a k0 rest : elems (Node a k0 rest) = elems k0 ++ cat_r rest. Proof. reflexivity. Qed.
Lemma lmarks_leaf a rest : lmarks (Node a Nil rest) = [a]. Proof. reflexivity. Qed.
Lemma lmarks_inner a k0 rest : leaf k0 = false -> lmarks (Node a k0 rest) = lmarks k0 ++ mcat_r rest.
Proof. cbn. by intros ->. Qed.
Global Arguments elems : simpl never.
Global Arguments lmarks : simpl never.
Global Arguments cat_l : simpl never.
Global Arguments cat_r : simpl never.
Global Arguments mcat_l : simpl never.
Global Arguments mcat_r : simpl never.
Lemma elems_nil : elems Nil = []. Proof. reflexivity. Qed.
Lemma lmarks_nil : lmarks Nil = []. Proof. reflexivity. Qed.

(** ** glue, row *)
Lemma glue_length l t r k rest : glue l t r = (k, rest) -> length rest = length l + length r.
Proof.
  revert k rest. induction l as [|[k' v] l IH]; cbn; intros k rest H; simplify_eq; [done|].
  destruct (glue l t r) as [t' r'] eqn:E. simplify_eq. cbn. by rewrite (IH t' r').
Qed.
Lemma glue_elems l t r k rest : glue l t r = (k, rest) -> elems k ++ cat_r rest = cat_l l ++ elems t ++ cat_r r.
Proof.
  revert k rest. induction l as [|[k' v] l IH]; cbn; intros k rest H; simplify_eq; [by rewrite cat_l_nil|].
  destruct (glue l t r) as [t' r'] eqn:E. simplify_eq.
  rewrite cat_r_cons, cat_l_cons, <- app_assoc. cbn. by rewrite (IH t' r').
Qed.
Lemma glue_marks l t r k rest : glue l t r = (k, rest) -> lmarks k ++ mcat_r rest = mcat_l l ++ lmarks t ++ mcat_r r.
Proof.
  revert k rest. induction l as [|[k' v] l IH]; cbn; intros k rest H; simplify_eq; [done|].
  destruct (glue l t r) as [t' r'] eqn:E. simplify_eq.
  rewrite mcat_r_cons, mcat_l_cons, <- app_assoc. by rewrite (IH t' r').
Qed.
Lemma glue_inj l1 l2 t1 t2 r1 r2 : length l1 = length l2 -> glue l1 t1 r1 = glue l2 t2 r2 -> l1 = l2 /\ t1 = t2 /\ r1 = r2.
Proof.
  revert l2. induction l1 as [|[k1 v1] l1 IH]; intros [|[k2 v2] l2]; cbn; intros Hl H; try lia; [by simplify_eq|].
  destruct (glue l1 t1 r1) as [a b] eqn:E1, (glue l2 t2 r2) as [c d] eqn:E2. simplify_eq.
  destruct (IH l2) as (-> & -> & ->); auto; try congruence.
Qed.
Lemma glue_P (P : node V -> Prop) l t r k rest : glue l t r = (k, rest) ->
  (P k /\ Forall (fun x => P (snd x)) rest) <-> (Forall (fun x => P (fst x)) l /\ P t /\ Forall (fun x => P (snd x)) r).
Proof.
  revert k rest. induction l as [|[k' v] l IH]; cbn; intros k rest H; simplify_eq.
  - split; [intros [? ?]; repeat split; auto | intros (? & ? & ?); auto].
  - destruct (glue l t r) as [t' r'] eqn:E. simplify_eq. specialize (IH _ _ eq_refl).
    rewrite !Forall_cons. cbn. tauto.
Qed.
Lemma glue_row k rest v l t r : glue (row k rest v ++ l) t r = (k, rest ++ (let '(t', r') := glue l t r in (v, t') :: r')).
Proof.
  revert k. induction rest as [|[v1 k1] rest IH]; intros k; cbn; [by destruct (glue l t r)|].
  rewrite IH. reflexivity.
Qed.
Lemma row_length k rest v : length (row k rest v) = S (length rest).
Proof. revert k; induction rest as [|[v1 k1] rest IH]; intros; cbn; auto. Qed.
Lemma row_cat k rest v : cat_l (row k rest v) = elems k ++ cat_r rest ++ [v].
Proof.
  revert k; induction rest as [|[v1 k1] rest IH]; intros; cbn; [by rewrite cat_l_cons|].
  rewrite cat_l_cons, IH, cat_r_cons. cbn. by rewrite <- app_assoc.
Qed.
Lemma row_mcat k rest v : mcat_l (row k rest v) = lmarks k ++ mcat_r rest.
Proof.
  revert k; induction rest as [|[v1 k1] rest IH]; intros; cbn; [by rewrite mcat_l_cons|].
  rewrite mcat_l_cons, IH, mcat_r_cons. reflexivity.
Qed.
Lemma row_P (P : node V -> Prop) k rest v : Forall (fun x => P (fst x)) (row k rest v) <-> P k /\ Forall (fun x => P (snd x)) rest.
Proof.
  revert k; induction rest as [|[v1 k1] rest IH]; intros; cbn.
  - rewrite Forall_cons. cbn. split; intros [? ?]; auto.
  - rewrite Forall_cons, IH, Forall_cons. reflexivity.
Qed.
Lemma glue_row_back l k v r : forall lk lrest, glue l k r = (lk, lrest) -> row lk lrest v = l ++ row k r v.
Proof.
  induction l as [|[k' v'] l IH]; cbn; intros lk lrest H; simplify_eq; [done|].
  destruct (glue l k r) as [a b] eqn:E. simplify_eq. cbn. by rewrite (IH a b).
Qed.

(** ** cuts *)
Lemma cut_at_spec n (L : list (node V * V)) (R : list (V * node V)) : n < length L + length R ->
  exists x, cut_at n L R = Some x /\
  match x with
  | HoleRight lk lrest v l r => row lk lrest v ++ l = L /\ r = R /\ length lrest = n
  | HoleLeft l r v rk rrest => l = L /\ r ++ (v, rk) :: rrest = R /\ length l + length r = n
  end.
Proof.
  intros H. unfold cut_at. destruct (drop n L) as [|[k v] L2] eqn:E.
  - assert (Hn : length L <= n). { destruct (decide (n < length L)); [|lia]. apply (f_equal length) in E. rewrite drop_length in E. cbn in E. lia. }
    destruct (drop (n - length L) R) as [|[v k] R2] eqn:E2.
    + apply (f_equal length) in E2. rewrite drop_length in E2. cbn in E2. lia.
    + eexists; split; [reflexivity|]. cbn. repeat split.
      * rewrite <- E2. apply take_drop.
      * rewrite take_length. lia.
  - destruct (glue (take n L) k []) as [lk lrest] eqn:E2. eexists; split; [reflexivity|]. cbn. repeat split.
    + rewrite (glue_row_back _ _ v _ _ _ E2). cbn. rewrite <- app_assoc. cbn. rewrite <- E. apply take_drop.
    + apply glue_length in E2. rewrite E2, take_length. apply (f_equal length) in E. rewrite drop_length in E. cbn in *. lia.
Qed.
Lemma unsnoc_spec {A} (l : list A) : match unsnoc l with Some (i, x) => l = i ++ [x] | None => l = [] end.
Proof. induction l as [|x l IH]; cbn; [done|]. destruct (unsnoc l) as [[i y]|]; subst; done. Qed.
Lemma unsnoc_snoc {A} (l : list A) x : unsnoc (l ++ [x]) = Some (l, x).
Proof. induction l as [|y l IH]; cbn; [done|]. by rewrite IH. Qed.

(** ** opening *)
Lemma walk_spec i k rest : i <= length rest -> exists l t r, walk i k rest = Some (l, t, r) /\ glue l t r = (k, rest) /\ length l = i.
Proof.
  revert i k. induction rest as [|[v k1] rest IH]; intros [|i] k H; cbn in *; try lia.
  - by eexists _, _, _.
  - by eexists _, _, _.
  - destruct (IH i k1) as (l & t & r & -> & E & Hl); [lia|]. eexists _, _, _; split; [done|]. cbn. rewrite E. auto with lia.
Qed.
Lemma close_elems f t : elems (close f t) = cat_l (f_l f) ++ elems t ++ cat_r (f_r f).
Proof. unfold close. destruct (glue _ _ _) as [k rest] eqn:E. rewrite elems_node. eapply glue_elems; eauto. Qed.
Lemma elems_root fs t : elems (close_all fs t) = before fs ++ elems t ++ after fs.
Proof.
  revert t; induction fs as [|f fs IH]; intros t; cbn; [by rewrite app_nil_r|].
  rewrite IH, close_elems, <- !app_assoc. reflexivity.
Qed.
Lemma close_inj f1 f2 t1 t2 : length (f_l f1) = length (f_l f2) -> close f1 t1 = close f2 t2 -> f1 = f2 /\ t1 = t2.
Proof.
  unfold close. intros Hl H. destruct (glue (f_l f1) _ _) as [a b] eqn:E1, (glue (f_l f2) _ _) as [c d] eqn:E2. simplify_eq.
  destruct (glue_inj (f_l f1) (f_l f2) t1 t2 (f_r f1) (f_r f2)) as (H1 & H2 & H3); auto; [congruence|].
  destruct f1, f2; cbn in *; by subst.
Qed.
Lemma close_all_inj fs1 fs2 t1 t2 : map (fun f => length (f_l f)) fs1 = map (fun f => length (f_l f)) fs2 ->
  close_all fs1 t1 = close_all fs2 t2 -> fs1 = fs2 /\ t1 = t2.
Proof.
  revert fs2 t1 t2. induction fs1 as [|f1 fs1 IH]; intros [|f2 fs2] t1 t2; cbn; intros Hm H; simplify_eq; [done|].
  destruct (IH fs2 _ _ H1 H) as [-> Hc]. by destruct (close_inj _ _ _ _ H0 Hc) as [-> ->].
Qed.
Lemma close_not_nil f t : close f t <> Nil.
Proof. unfold close. by destruct (glue _ _ _). Qed.
Lemma child_at_spec i a k0 rest : i <= length rest ->
  exists f t, child_at i (Node a k0 rest) = Ok (f, t) /\ close f t = Node a k0 rest /\ length (f_l f) = i /\ f_mark f = a.
Proof.
  intros H. destruct (walk_spec i k0 rest H) as (l & t & r & E & Hg & Hl). cbn. rewrite E.
  eexists _, _; split; [done|]. unfold close; cbn. by rewrite Hg.
Qed.
End Facts.
