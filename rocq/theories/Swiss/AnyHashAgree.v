(** The model of [AnyHash] is that of [Model] when the two objects always give the answers of two functions:
    the theorems of C73 are about the code C01 is about. *)
From stdpp Require Import list.
From Coq Require Import Arith NArith ZArith Lia.
From Verif.Common Require Import Res Word.
From Verif.Swiss Require Import Group Model MapSpec History AnyHashSpec AnyHash.
Local Open Scope nat_scope.
Local Open Scope res_scope.

Section Agree.
Context {K V : Type} (hash : K -> N) (eqb : K -> K -> bool) (E : env).
Notation table := (table K V).
Notation H := (fun _ : nat => hash).
Notation Q := (fun _ : nat => eqb).

(** forget the number of the next call *)
Definition strip {A} (r : res (A * nat)) : res A := let* (a, _) := r in Ok a.
Lemma strip_bind {A B} (r : res (A * nat)) (f : A -> nat -> res (B * nat)) (h : A -> res B) :
  (forall a n, strip (f a n) = h a) -> strip (let* (a, n) := r in f a n) = let* a := strip r in h a.
Proof. intros Hf. destruct r as [[a n]| | | |]; cbn [rbind strip]; [apply Hf|reflexivity..]. Qed.
Lemma strip_plain {A B} (r : res A) (f : A -> res (B * nat)) (h : A -> res B) :
  (forall a, strip (f a) = h a) -> strip (rbind r f) = rbind r h.
Proof. intros Hf. destruct r; cbn [rbind strip]; [apply Hf|reflexivity..]. Qed.

Lemma agree_match t k off is n : strip (match_any Q n t k off is) = @match_loop K V eqb t k off is.
Proof.
  revert n. induction is as [|i is IH]; intros n; [reflexivity|]. cbn [match_any match_loop].
  apply strip_plain. intros s. apply strip_plain. intros e. destruct (eqb k (fst e)); [reflexivity|apply IH].
Qed.
Lemma agree_find fuel : forall n t k h off idx,
  strip (find_any Q E fuel n t k h off idx) = @find_loop K V eqb E fuel t k h off idx.
Proof.
  induction fuel as [|f IH]; intros n t k h off idx; [reflexivity|]. cbn [find_any find_loop].
  apply strip_plain. intros w. rewrite <- (agree_match t k off _ n). apply strip_bind. intros r n1.
  destruct r; [reflexivity|]. destruct (g_any_empty _ w); [reflexivity|].
  destruct (probe_next E (t_cap t) off idx). apply IH.
Qed.
Lemma agree_find_key n t k : strip (find_key_any H Q E n t k) = @find_key K V hash eqb E t k.
Proof. apply agree_find. Qed.
Lemma agree_resize is : forall n oc os t,
  strip (resize_any H E n is oc os t) = @resize_loop K V hash E is oc os t.
Proof.
  induction is as [|i is IH]; intros n oc os t; [reflexivity|]. cbn [resize_any resize_loop].
  apply strip_plain. intros c. destruct (IsFull c); [|apply IH].
  apply strip_plain. intros s. apply strip_plain. intros e. apply strip_plain. intros p. apply strip_plain. intros c'.
  apply strip_plain. intros s'. apply IH.
Qed.
Lemma agree_resize_to n t m : strip (resize_to H E n t m) = @resize K V hash E t m.
Proof. apply strip_plain. intros t'. apply agree_resize. Qed.
Lemma agree_drop fuel : forall n t i, strip (drop_any H E fuel n t i) = @drop_loop K V hash E fuel t i.
Proof.
  induction fuel as [|f IH]; intros n t i; [reflexivity|]. cbn [drop_any drop_loop].
  destruct (i =? t_cap t); [reflexivity|]. apply strip_plain. intros c. destruct (negb (IsDeleted c)); [apply IH|].
  apply strip_plain. intros s. apply strip_plain. intros e. apply strip_plain. intros p.
  destruct (probe_index _ _ _ p =? _); [apply strip_plain; intros c'; apply IH|].
  apply strip_plain. intros cn. destruct (IsEmpty cn); apply strip_plain; intros c1; apply strip_plain; intros [e1 s1].
  - apply strip_plain. intros s2. apply strip_plain. intros c2. apply IH.
  - apply strip_plain. intros [e2 s2]. apply strip_plain. intros s3. apply strip_plain. intros s4. apply IH.
Qed.
Lemma agree_grow n t : strip (grow_any H E n t) = @rehash_and_grow_if_necessary K V hash E t.
Proof.
  unfold grow_any, rehash_and_grow_if_necessary. destruct (t_cap t =? 0); [apply agree_resize_to|].
  destruct (t_size t <=? _); [|apply agree_resize_to].
  unfold drop_deletes_any, drop_deletes_without_resize. destruct (t_cap t <? _); [reflexivity|].
  apply strip_plain. intros c. rewrite <- (agree_drop _ n). apply strip_bind. reflexivity.
Qed.
Lemma agree_prepare n t h : strip (prepare_any H E n t h) = @prepare_insert K V hash E t h.
Proof.
  unfold prepare_any, prepare_insert. apply strip_plain. intros p0. apply strip_plain. intros c0.
  destruct ((t_growth t =? 0)%N && negb (IsDeleted c0)).
  - rewrite <- (agree_grow n). destruct (grow_any H E n t) as [[t1 n1]| | | |]; cbn [rbind strip]; try reflexivity.
    destruct (find_first_non_full E (t_ctrl t1) (t_cap t1) h); cbn [rbind strip]; try reflexivity.
    destruct (load (t_ctrl t1) _); reflexivity.
  - cbn [rbind]. destruct (load (t_ctrl t) p0); reflexivity.
Qed.
Lemma agree_emplace n t k v : strip (emplace_any H Q E n t k v) = @emplace K V hash eqb E t k v.
Proof.
  unfold emplace_any, emplace. rewrite <- (agree_find_key n). unfold find_key_any.
  apply strip_bind. intros [p|] n1; [reflexivity|]. rewrite <- (agree_prepare n1).
  destruct (prepare_any H E n1 t (hash k)) as [[[t1 p] n2]| | | |]; cbn [rbind strip]; try reflexivity.
  unfold finish_insert. cbn [fst]. unfold finish_any.
  destruct (construct (t_slots t1) p (k, v)); cbn [rbind strip]; try reflexivity.
  destruct (set_ctrl E (t_ctrl t1) (t_cap t1) p (H2 (hash k))); reflexivity.
Qed.
Lemma agree_assign n t k v : strip (assign_any H Q E n t k v) = @insert_or_assign K V hash eqb E t k v.
Proof.
  unfold assign_any, insert_or_assign. rewrite <- (agree_emplace n).
  destruct (emplace_any H Q E n t k v) as [[[[t1 p] b] n1]| | | |]; cbn [rbind strip]; try reflexivity.
  destruct b; [reflexivity|]. destruct (assign_at t1 p v); reflexivity.
Qed.
Lemma agree_rehash n t m : strip (rehash_any H E n t m) = @rehash K V hash E t m.
Proof.
  unfold rehash_any, rehash. destruct ((m =? 0)%N && (t_cap t =? 0)); [reflexivity|].
  destruct ((m =? 0)%N && (t_size t =? 0)); [reflexivity|].
  cbv zeta. destruct ((m =? 0)%N || _); [apply agree_resize_to|reflexivity].
Qed.
Lemma agree_reserve n t m : strip (reserve_any H E n t m) = @reserve K V hash E t m.
Proof. apply strip_plain. intros x. apply agree_rehash. Qed.

(** the calls C01 and C73 have in common, and their answers *)
Definition as_call (o : op K V) : call K V :=
  match o with
  | OEmplace k v => CEmplace k v | OAssign k v => CAssign k v | OFind k => CFind k | OErase k => CErase k
  | OClear => CClear | ORehash n => CRehash n | OReserve n => CReserve n | OSize => CSize | OTraverse => CTraverse
  end.
Definition as_answer (r : out K V) : answer K V :=
  match r with
  | RInserted b e => AInserted b e | RFound e => AFound e | RErased e => ACount (match e with Some _ => 1 | None => 0 end)
  | RUnit => AUnit | RSize n => ACount n | RElems l => AElems l | RThrow => AThrow
  end.
Lemma load_no_alloc {A} (l : list A) i : load l i <> BadAlloc.
Proof. unfold load. destruct (l !! i); discriminate. Qed.
Lemma match_no_alloc (t : table) k off is n : match_any Q n t k off is <> @BadAlloc (option nat * nat).
Proof.
  revert n. induction is as [|i is IH]; intros n; [discriminate|]. cbn [match_any].
  pose proof (load_no_alloc (t_slots t) (probe_at (t_cap t) off i)).
  destruct (load (t_slots t) (probe_at (t_cap t) off i)) as [[e|]| | | |]; cbn [rbind of_option]; try discriminate; [|congruence].
  destruct (eqb k (fst e)); [discriminate|apply IH].
Qed.
Lemma find_no_alloc fuel : forall n (t : table) k h off idx, find_any Q E fuel n t k h off idx <> BadAlloc.
Proof.
  induction fuel as [|f IH]; intros n t k h off idx; [discriminate|]. cbn [find_any].
  unfold window. destruct (_ <=? _); cbn [rbind]; [|discriminate].
  match goal with |- context [match_any Q n t k off ?x] => pose proof (match_no_alloc t k off x n); destruct (match_any Q n t k off x) as [[[p|] n1]| | | |] end;
    cbn [rbind]; try discriminate; [|congruence].
  destruct (g_any_empty _ _); [discriminate|]. destruct (probe_next E (t_cap t) off idx). apply IH.
Qed.
(** The table and the answer of one call in the two models. *)
Theorem C73_agrees_with_C01 n t o : strip (exec_any H Q E n t (as_call o)) =
  let* (t', r) := exec hash eqb E t o in Ok (t', as_answer r).
Proof.
  destruct o as [k v|k v|k|k| |m|m| |]; cbn [as_call exec_any exec].
  - pose proof (agree_emplace n t k v) as Ha. unfold emplace_any in *. rewrite <- Ha. clear Ha. unfold find_key_any.
    pose proof (find_no_alloc (S (t_cap t)) (S n) t k (hash k) (probe_start (hash k) (t_cap t)) 0) as Hna.
    fold (find_hash Q E (S n) t k (hash k)) in Hna.
    destruct (find_hash Q E (S n) t k (hash k)) as [[r n1]| | | |]; cbn [rbind strip catch] in *; try reflexivity; [|congruence].
    destruct r as [p|]; cbn [rbind strip catch caught] in *.
    + destruct (deref t p); reflexivity.
    + destruct (prepare_any H E n1 t (hash k)) as [[[t1 p] n2]| | | |]; cbn [rbind strip catch caught]; try reflexivity.
      destruct (finish_any E t1 p (k, v) (hash k)) as [t2| | | |]; cbn [rbind strip catch caught]; try reflexivity.
      destruct (deref t2 p); reflexivity.
  - pose proof (agree_assign n t k v) as Ha. unfold assign_any, emplace_any in *. rewrite <- Ha. clear Ha. unfold find_key_any.
    pose proof (find_no_alloc (S (t_cap t)) (S n) t k (hash k) (probe_start (hash k) (t_cap t)) 0) as Hna.
    fold (find_hash Q E (S n) t k (hash k)) in Hna.
    destruct (find_hash Q E (S n) t k (hash k)) as [[r n1]| | | |]; cbn [rbind strip catch] in *; try reflexivity; [|congruence].
    destruct r as [p|]; cbn [rbind strip catch caught] in *.
    + destruct (assign_at t p v) as [t2| | | |]; cbn [rbind strip catch caught]; try reflexivity. destruct (deref t2 p); reflexivity.
    + destruct (prepare_any H E n1 t (hash k)) as [[[t1 p] n2]| | | |]; cbn [rbind strip catch caught]; try reflexivity.
      destruct (finish_any E t1 p (k, v) (hash k)) as [t2| | | |]; cbn [rbind strip catch caught]; try reflexivity.
      destruct (deref t2 p); reflexivity.
  - rewrite <- (agree_find_key n). destruct (find_key_any H Q E n t k) as [[[p|] n1]| | | |]; cbn [rbind strip]; try reflexivity.
    destruct (deref t p); reflexivity.
  - unfold erase_key_any, erase_key. rewrite <- (agree_find_key n).
    destruct (find_key_any H Q E n t k) as [[[p|] n1]| | | |]; cbn [rbind strip]; try reflexivity.
    destruct (erase_at E t p) as [[e t']| | | |]; reflexivity.
  - destruct (clear E t); reflexivity.
  - rewrite <- (agree_rehash n). destruct (rehash_any H E n t m) as [[t' n']| | | |]; reflexivity.
  - rewrite <- (agree_reserve n). destruct (reserve_any H E n t m) as [[t' n']| | | |]; reflexivity.
  - reflexivity.
  - destruct (to_list E t); reflexivity.
Qed.
End Agree.
Print Assumptions C73_agrees_with_C01.
