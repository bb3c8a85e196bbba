(** Property theorems C76: several hash containers and node handles whose hash and equality objects may answer
    anything. *)
From stdpp Require Import list.
From Coq Require Import Arith NArith ZArith Lia.
From Verif.Common Require Import Res Word.
From Verif.Swiss Require Import Group GroupSpec Model Probe Inv TableInv Resize Ops MapSpec History PropsTable
  AnyHashSpec AnyHash AnyHashProof PropsAnyHash AnyMultiSpec AnyMulti AnyMultiProof.
Local Open Scope nat_scope.
Local Open Scope res_scope.
Local Arguments elems : simpl never.

Definition margs_ok {K V} (E : env) (o : mcall K V) : Prop := match o with MOn _ o => args_ok E o | _ => True end.
(** operator== of the elements answered yes for [x], [y] in one of the calls numbered from [n] to [n'] *)
Definition saw {A} (eeq : nat -> A -> A -> bool) (n n' : nat) (x y : A) : Prop := exists i, n <= i < n' /\ eeq i x y = true.
(** what the traversals of the containers give, and what the nodes hold *)
Definition shows {K V} (E : env) (w : @mstate K V) (s : @state K V) : Prop :=
  Forall2 (fun t c => to_list E t = Ok c) (fst w) (fst s) /\ snd s = snd w.

(** What a program can have built that began with any number of empty containers and node handles, with the
    number of the next call of one of the objects.  The program may choose each call knowing all that
    happened before. *)
Inductive mreach {K V} (hash : nat -> K -> N) (eqb : nat -> K -> K -> bool) (eeq : nat -> K * V -> K * V -> bool) (E : env)
  : nat -> @mstate K V -> Prop :=
| mreach_start a b : mreach hash eqb eeq E 0 (replicate a empty_table, replicate b None)
| mreach_call n w s o w' r n' : mreach hash eqb eeq E n w -> shows E w s -> margs_ok E o -> musable s o ->
    exec_multi hash eqb eeq E n w o = Ok (w', r, n') -> mreach hash eqb eeq E n' w'.

Section Calls.
Context {K V : Type} (hash : nat -> K -> N) (eqb : nat -> K -> K -> bool) (eeq : nat -> K * V -> K * V -> bool) (E : env) (HE : env_ok E).
Notation elt := (K * V)%type.
Notation table := (table K V).
Definition cont (t : table) : list elt := elems (t_slots t).
Definition vw (w : @mstate K V) : @state K V := (cont <$> fst w, snd w).
Definition mgood (w : @mstate K V) : Prop := Forall (wgood E) (fst w).

Lemma fmap_insert_cont (ts : list table) (i : nat) t : cont <$> <[i := t]> ts = <[i := cont t]> (cont <$> ts).
Proof using. apply list_fmap_insert. Qed.
Lemma look (ts : list table) i : Forall (wgood E) ts -> i < length (cont <$> ts) ->
  exists t, ts !! i = Some t /\ wgood E t /\ (cont <$> ts) !! i = Some (cont t).
Proof using.
  intros Hg Hi. rewrite fmap_length in Hi. destruct (lookup_lt_is_Some_2 ts i Hi) as [t Ht]. exists t. split; [assumption|].
  split; [eapply Forall_lookup_1; eassumption|]. rewrite list_lookup_fmap, Ht. reflexivity.
Qed.
Lemma good_insert (ts : list table) i t : Forall (wgood E) ts -> wgood E t -> Forall (wgood E) (<[i := t]> ts).
Proof using. intros. apply Forall_insert; assumption. Qed.

Lemma exec_multi_legal w n o : mgood w -> margs_ok E o -> musable (vw w) o ->
  exists w' r n', exec_multi hash eqb eeq E n w o = Ok (w', r, n') /\ mgood w' /\
    mlegal (said eqb n n') (saw eeq n n') (vw w) o r (vw w').
Proof using HE.
  destruct w as [ts ns]. unfold mgood, vw. cbn [fst snd]. intros Hg Ho Hu.
  destruct o as [i o|d s|a b|d s|d s|a b|i p|i k m|i j m|i m]; cbn [exec_multi margs_ok musable mlegal] in *.
  - destruct Hu as (c & Hc & Hu). destruct (look ts i Hg) as (t & Ht & Hgt & Hl); [apply lookup_lt_Some in Hc; assumption|].
    rewrite Hc in Hl. injection Hl as ->. rewrite Ht. cbn [of_option rbind].
    destruct (exec_legal hash eqb E HE t n o Hgt Ho Hu) as (t' & r & n' & Hx & Hg' & Hleg). rewrite Hx. cbn [rbind].
    eexists _, _, n'. split; [reflexivity|]. cbn [fst snd]. split; [apply good_insert; assumption|].
    exists (cont t), r, (cont t'). rewrite fmap_insert_cont. auto.
  - destruct Hu as (Hne & Hd & Hs). destruct (look ts d Hg Hd) as (td & Htd & Hgd & Hld). destruct (look ts s Hg Hs) as (t2 & Ht2 & Hg2 & Hl2).
    rewrite Htd, Ht2. cbn [of_option rbind].
    destruct (merge_any_ok hash eqb eeq E HE td t2 n Hgd Hg2) as (td' & t2' & b & n' & gn & kp & Hm & Hgd' & Hg2' & P1 & P2 & P3 & P4).
    rewrite Hm. cbn [rbind]. eexists _, _, n'. split; [reflexivity|]. cbn [fst snd].
    split; [apply good_insert; [apply good_insert; assumption|assumption]|].
    exists (cont td), (cont t2), gn, kp, (cont td'). rewrite !fmap_insert_cont. change (cont t2' = kp) in P3. rewrite P3.
    split; [assumption|]. split; [assumption|]. split; [assumption|]. split; [assumption|]. split; [reflexivity|]. split; [reflexivity|].
    destruct b; [left; reflexivity|right]. split; [reflexivity|]. intros e He. destruct (P4 eq_refl e He) as (x & q & H1 & H2 & H3).
    exists x. split; [assumption|]. exists q. auto.
  - destruct Hu as [Ha Hb]. destruct (look ts a Hg Ha) as (ta & Hta & Hga & Hla). destruct (look ts b Hg Hb) as (tb & Htb & Hgb & Hlb).
    rewrite Hta, Htb. cbn [of_option rbind]. eexists _, _, n. split; [reflexivity|]. cbn [fst snd].
    split; [apply good_insert; [apply good_insert; assumption|assumption]|].
    exists (cont ta), (cont tb). rewrite !fmap_insert_cont. auto.
  - destruct Hu as (Hne & Hd & Hs). destruct (look ts d Hg Hd) as (td & Htd & Hgd & Hld). destruct (look ts s Hg Hs) as (t2 & Ht2 & Hg2 & Hl2).
    rewrite Htd, Ht2. cbn [of_option rbind]. eexists _, _, n. split; [reflexivity|]. cbn [fst snd].
    split; [apply good_insert; [apply good_insert; assumption|left; reflexivity]|].
    exists (cont t2). rewrite !fmap_insert_cont. auto.
  - destruct Hu as (Hd & Hs). destruct (look ts s Hg Hs) as (t2 & Ht2 & Hg2 & Hl2). rewrite Ht2. cbn [of_option rbind].
    destruct (copy_any_ok E HE hash eqb t2 n Hg2) as [Hb|(t' & n' & Hr & Ht' & Hp)].
    + rewrite Hb. eexists _, _, n. split; [reflexivity|]. cbn [fst snd]. split; [assumption|]. exists (cont t2). auto.
    + rewrite Hr. eexists _, _, n'. split; [reflexivity|]. cbn [fst snd]. split; [apply good_insert; assumption|].
      exists (cont t2). split; [assumption|]. split; [reflexivity|]. left. split; [reflexivity|]. exists (cont t').
      rewrite fmap_insert_cont. auto.
  - destruct Hu as [Ha Hb]. destruct (look ts a Hg Ha) as (ta & Hta & Hga & Hla). destruct (look ts b Hg Hb) as (tb & Htb & Hgb & Hlb).
    rewrite Hta, Htb. cbn [of_option rbind]. unfold table_eq_any.
    assert (Hsz : t_size ta = t_size tb -> length (cont ta) = length (cont tb)) by (rewrite (w_size E ta Hga), (w_size E tb Hgb); auto).
    destruct (Nat.eqb_spec (t_size ta) (t_size tb)) as [He|_].
    + destruct (t_cap tb <? t_cap ta).
      * rewrite (to_list_elems hash eqb E HE tb Hgb). cbn [rbind].
        destruct (all_in_any_ok hash eqb eeq E HE ta (elems (t_slots tb)) Hga n) as (r & n' & Hr & _ & Hin). rewrite Hr. cbn [rbind].
        eexists _, _, n'. split; [reflexivity|]. cbn [fst snd]. split; [assumption|]. exists (cont ta), (cont tb), r.
        repeat (split; [assumption || reflexivity|]). intros Htr. split; [auto|]. right. intros x Hx.
        destruct (Hin Htr x Hx) as (y & q & H1 & H2 & H3). exists y. split; [assumption|]. exists q. auto.
      * rewrite (to_list_elems hash eqb E HE ta Hga). cbn [rbind].
        destruct (all_in_any_ok hash eqb eeq E HE tb (elems (t_slots ta)) Hgb n) as (r & n' & Hr & _ & Hin). rewrite Hr. cbn [rbind].
        eexists _, _, n'. split; [reflexivity|]. cbn [fst snd]. split; [assumption|]. exists (cont ta), (cont tb), r.
        repeat (split; [assumption || reflexivity|]). intros Htr. split; [auto|]. left. intros x Hx.
        destruct (Hin Htr x Hx) as (y & q & H1 & H2 & H3). exists y. split; [assumption|]. exists q. auto.
    + cbn [rbind]. eexists _, _, n. split; [reflexivity|]. cbn [fst snd]. split; [assumption|]. exists (cont ta), (cont tb), false.
      repeat (split; [assumption || reflexivity|]). discriminate.
  - destruct (look ts i Hg Hu) as (t & Ht & Hgt & Hl). rewrite Ht. cbn [of_option rbind].
    assert (He : exists b t', begin_it E t = Ok b /\ erase_if_any E (S (t_cap t)) p 0 t b = Ok t' /\ wgood E t' /\ cont t' = left_by p 0 (cont t)).
    { destruct Hgt as [->|Hw].
      - exists 0, empty_table. split; [reflexivity|]. split; [reflexivity|]. split; [left; reflexivity|reflexivity].
      - destruct (begin_any hash eqb eeq E HE t Hw) as (b & Hb & Hbc & Hbs & Hdr & Htk).
        destruct (erase_if_any_ok hash eqb eeq E HE p (S (t_cap t)) 0 b t Hw Hbc ltac:(lia) Hbs) as (t' & Hr & Ht' & Hel).
        exists b, t'. split; [assumption|]. split; [assumption|]. split; [right; assumption|]. unfold cont. rewrite Hel, Htk, Hdr. reflexivity. }
    destruct He as (b & t' & Hb & Hr & Ht' & Hel). rewrite Hb. cbn [rbind]. rewrite Hr. cbn [rbind].
    eexists _, _, n. split; [reflexivity|]. cbn [fst snd]. split; [apply good_insert; assumption|].
    exists (cont t). rewrite fmap_insert_cont, Hel. rewrite (w_size E t Hgt), (w_size E t' Ht'). fold (cont t) (cont t'). rewrite Hel. auto.
  - destruct Hu as [Hi Hm]. destruct (look ts i Hg Hi) as (t & Ht & Hgt & Hl). rewrite Ht. cbn [of_option rbind].
    unfold erase_key_any, find_key_any.
    destruct (find_hash_ok E HE hash eqb t k (hash n k) (S n) Hgt) as (r & n1 & Hf & Hle & Hs). rewrite Hf. cbn [rbind]. destruct r as [p|].
    + destruct Hs as (e & q & Hp & Hi' & He). destruct Hgt as [->|Hw]; [discriminate|].
      destruct (w_erase E HE hash eqb t p e Hw Hp) as (t' & Her & Ht' & Hsl). rewrite Her. cbn [rbind].
      eexists _, _, n1. split; [reflexivity|]. cbn [fst snd]. split; [apply good_insert; [assumption|right; assumption]|].
      exists (cont t). split; [assumption|]. right. destruct (elems_split _ _ _ Hp) as (l2 & Hel & Hrem & _).
      eexists _, e, l2. split; [exact Hel|]. split; [exists q; split; [lia|assumption]|]. split; [reflexivity|].
      rewrite <- Hsl in Hrem. change (cont t' = elems (take p (t_slots t)) ++ l2) in Hrem. rewrite fmap_insert_cont, Hrem. auto.
    + cbn [rbind]. eexists _, _, n1. split; [reflexivity|]. cbn [fst snd]. split; [apply good_insert; assumption|].
      exists (cont t). split; [assumption|]. left. split; [reflexivity|]. rewrite list_insert_id by assumption. auto.
  - destruct Hu as [(c & Hc & Hj) Hm]. destruct (look ts i Hg) as (t & Ht & Hgt & Hl); [apply lookup_lt_Some in Hc; assumption|].
    rewrite Hc in Hl. injection Hl as ->. rewrite Ht. cbn [of_option rbind].
    destruct (erase_nth_ok E HE hash eqb t j Hgt Hj) as (e & t' & l1 & l2 & Her & Ht' & Hel & Hlen & Hel'). rewrite Her. cbn [rbind].
    eexists _, _, n. split; [reflexivity|]. cbn [fst snd]. split; [apply good_insert; assumption|].
    exists l1, e, l2. change (cont t = l1 ++ e :: l2) in Hel. change (cont t' = l1 ++ l2) in Hel'. rewrite Hc, Hel. split; [reflexivity|]. split; [assumption|]. split; [reflexivity|].
    rewrite fmap_insert_cont, Hel'. auto.
  - destruct Hu as [Hi Hm]. destruct (look ts i Hg Hi) as (t & Ht & Hgt & Hl). rewrite Ht. cbn [of_option rbind].
    destruct (lookup_lt_is_Some_2 ns m Hm) as [nd Hnd]. rewrite Hnd. cbn [of_option rbind]. destruct nd as [e|].
    + destruct (emplace_any_ok hash eqb eeq E HE t (fst e) (snd e) n Hgt) as [(Hb & n1 & Hfk & Hn1)|[(y & q & p & n1 & Hem & Hp & Hq & Hk)|(t1 & p & n1 & Hem & Hn1 & Ht1 & Hp & Hperm)]].
      * rewrite Hb, Hfk. cbn [rbind]. eexists _, _, n1. split; [reflexivity|]. cbn [fst snd]. split; [assumption|].
        exists (cont t). split; [assumption|]. right. exists e. auto 8.
      * rewrite Hem, (deref_some t p y Hp). cbn [rbind]. eexists _, _, n1. split; [reflexivity|]. cbn [fst snd].
        split; [apply good_insert; assumption|]. exists (cont t). split; [assumption|]. right. exists e. split; [reflexivity|]. right. left.
        exists y. split; [reflexivity|]. split; [eapply slot_elem; eassumption|]. split; [exists q; auto|].
        rewrite (list_insert_id ts) by assumption. rewrite (list_insert_id ns) by assumption. auto.
      * rewrite <- surjective_pairing in Hp, Hperm. rewrite Hem, (deref_some t1 p e Hp). cbn [rbind]. eexists _, _, n1. split; [reflexivity|]. cbn [fst snd].
        split; [apply good_insert; [assumption|right; assumption]|]. exists (cont t). split; [assumption|]. right. exists e. split; [reflexivity|]. left.
        split; [reflexivity|]. exists (cont t1). rewrite fmap_insert_cont. auto.
    + eexists _, _, n. split; [reflexivity|]. cbn [fst snd]. split; [assumption|]. exists (cont t). split; [assumption|]. left. auto.
Qed.
Lemma shows_vw w : mgood w -> shows E w (vw w).
Proof using HE hash eqb.
  intros Hg. split; [|reflexivity]. unfold vw, mgood in *. cbn [fst]. induction (fst w) as [|t ts IH]; [constructor|].
  inversion Hg; subst. constructor; [|apply IH; assumption]. apply (to_list_elems hash eqb E HE). assumption.
Qed.
Lemma shows_fun w s : mgood w -> shows E w s -> s = vw w.
Proof using HE hash eqb.
  intros Hg [H1 H2]. destruct w as [ts ns], s as [cs ns']. unfold vw, mgood in *. cbn [fst snd] in *. subst ns'. f_equal.
  induction H1 as [|t c ts cs Hc _ IH]; [reflexivity|]. inversion Hg; subst. cbn [fmap list_fmap]. f_equal; [|apply IH; assumption].
  rewrite (to_list_elems hash eqb E HE t) in Hc by assumption. injection Hc as <-. reflexivity.
Qed.
Lemma mreach_good n w : mreach hash eqb eeq E n w -> mgood w.
Proof using HE.
  induction 1 as [a b|n w s o w' r n' Hr IH Hs Ho Hu Hx].
  - apply Forall_replicate. left. reflexivity.
  - rewrite (shows_fun w s IH Hs) in Hu. destruct (exec_multi_legal w n o IH Ho Hu) as (w2 & r2 & n2 & Hx2 & Hg & _).
    rewrite Hx in Hx2. injection Hx2 as <- <- <-. assumption.
Qed.
End Calls.

(** C76.  Whatever the objects answer, no call a program makes corrupts a container or never ends: it terminates
    without undefined behaviour, and its answer, the new contents and the nodes are among those the
    specification allows. *)
Theorem C76_any_hash_containers : forall (K V : Type) (hash : nat -> K -> N) (eqb : nat -> K -> K -> bool)
    (eeq : nat -> K * V -> K * V -> bool) (E : env) (n : nat) (w : @mstate K V),
  real_env E -> mreach hash eqb eeq E n w ->
  exists s, shows E w s /\ forall o, margs_ok E o -> musable s o ->
    exists w' r n' s', exec_multi hash eqb eeq E n w o = Ok (w', r, n') /\ shows E w' s' /\
      mlegal (said eqb n n') (saw eeq n n') s o r s'.
Proof.
  intros K V hash eqb eeq E n w HE Hr. pose proof (real_env_ok E HE) as HE'.
  pose proof (mreach_good hash eqb eeq E HE' n w Hr) as Hg.
  exists (vw w). split; [apply (shows_vw hash eqb E HE'); assumption|]. intros o Ho Hu.
  destruct (exec_multi_legal hash eqb eeq E HE' w n o Hg Ho Hu) as (w' & r & n' & Hx & Hg' & Hl).
  exists w', r, n', (vw w'). split; [assumption|]. split; [apply (shows_vw hash eqb E HE'); assumption|assumption].
Qed.
Print Assumptions C76_any_hash_containers.

(** C76, conservation: calls that only move elements about neither lose nor duplicate one, also when they throw. *)
Section Conserve.
Context {K V : Type}.
Notation elt := (K * V)%type.
Lemma concat_insert (cs : list (list elt)) i c c' : cs !! i = Some c -> c ++ concat (<[i := c']> cs) ≡ₚ c' ++ concat cs.
Proof.
  intros H. rewrite <- (take_drop_middle cs i c H) at 2. rewrite insert_take_drop by (apply lookup_lt_Some in H; assumption).
  rewrite !concat_app. cbn [concat]. solve_Permutation.
Qed.
Lemma nodes_insert (ns : list (option elt)) m x x' : ns !! m = Some x ->
  omap id [x] ++ omap id (<[m := x']> ns) ≡ₚ omap id [x'] ++ omap id ns.
Proof.
  intros H. rewrite <- (take_drop_middle ns m x H) at 2. rewrite insert_take_drop by (apply lookup_lt_Some in H; assumption).
  rewrite !omap_app. change (x' :: drop (S m) ns) with ([x'] ++ drop (S m) ns). change (x :: drop (S m) ns) with ([x] ++ drop (S m) ns).
  rewrite !omap_app. solve_Permutation.
Qed.
Lemma parted_perm (l a b : list elt) : parted l a b -> l ≡ₚ a ++ b.
Proof. induction 1 as [|x l a b _ IH|x l a b _ IH]; [reflexivity|cbn; f_equiv; assumption|rewrite IH; apply Permutation_middle]. Qed.
Lemma concat_two (cs : list (list elt)) i j ci cj ci' cj' : i <> j -> cs !! i = Some ci -> cs !! j = Some cj -> ci' ++ cj' ≡ₚ ci ++ cj ->
  concat (<[j := cj']> (<[i := ci']> cs)) ≡ₚ concat cs.
Proof.
  intros Hne Hi Hj Hp. pose proof (concat_insert cs i ci ci' Hi) as H1.
  pose proof (concat_insert (<[i := ci']> cs) j cj cj') as H2. rewrite list_lookup_insert_ne in H2 by assumption. specialize (H2 Hj).
  apply (Permutation_app_inv_l (ci ++ cj)). rewrite <- app_assoc, H2. rewrite Permutation_app_swap_app, H1.
  rewrite app_assoc. rewrite (Permutation_app_comm cj' ci'), Hp. reflexivity.
Qed.
Lemma legal_conserves said same (s : @state K V) o r s' : musable s o -> moves_only s o -> mlegal said same s o r s' -> everything s' ≡ₚ everything s.
Proof.
  destruct s as [cs ns], s' as [cs' ns']. unfold everything. cbn [fst snd].
  destruct o as [i o|d s|a b|d s|d s|a b|i p|i k m|i j m|i m]; cbn [musable moves_only mlegal fst snd]; intros Hu Hm Hl; try contradiction.
  - destruct Hl as (c & x & c' & Hc & -> & Hl & -> & ->). f_equiv.
    assert (Hp : c' ≡ₚ c).
    { destruct o; cbn [legal] in Hl; try contradiction.
      - destruct Hl as [-> _]. reflexivity.
      - destruct Hl as [[_ Hl]|[_ ->]]; [assumption|reflexivity].
      - destruct Hl as [[_ Hl]|[_ ->]]; [assumption|reflexivity].
      - destruct Hl as [[_ Hl]|[_ ->]]; [assumption|reflexivity].
      - destruct Hl as [_ ->]. reflexivity.
      - destruct Hl as [_ ->]. reflexivity. }
    apply (Permutation_app_inv_l c). rewrite (concat_insert cs i c c' Hc), Hp. reflexivity.
  - destruct Hl as (cd & c2 & gn & kp & cd' & H1 & H2 & H3 & H4 & -> & -> & _). f_equiv. apply parted_perm in H3.
    eapply concat_two; [apply Hu|exact H1|exact H2|]. rewrite H4, H3. solve_Permutation.
  - destruct Hl as (ca & cb & H1 & H2 & _ & -> & ->). f_equiv. destruct (Nat.eq_dec a b) as [->|Hne].
    + rewrite H1 in H2. injection H2 as <-. rewrite list_insert_insert, list_insert_id by assumption. reflexivity.
    + eapply concat_two; [exact Hne|exact H1|exact H2|apply Permutation_app_comm].
  - destruct Hl as (c & H1 & _ & -> & ->). f_equiv. eapply concat_two; [apply Hu|exact Hm|exact H1|]. rewrite app_nil_r. reflexivity.
  - destruct Hl as (ca & cb & x & _ & _ & -> & -> & _). reflexivity.
  - destruct Hl as (c & Hc & [(_ & -> & ->)|(l1 & e & l2 & -> & _ & _ & -> & ->)]).
    + rewrite list_insert_id by assumption. reflexivity.
    + pose proof (concat_insert cs i _ (l1 ++ l2) Hc) as H1. pose proof (nodes_insert ns m None (Some e) Hm) as H2. cbn in H2.
      apply (Permutation_app_inv_l (l1 ++ e :: l2)). rewrite app_assoc, H1, H2. cbn. solve_Permutation.
  - destruct Hl as (l1 & e & l2 & Hc & _ & _ & -> & ->).
    pose proof (concat_insert cs i _ (l1 ++ l2) Hc) as H1. pose proof (nodes_insert ns m None (Some e) Hm) as H2. cbn in H2.
    apply (Permutation_app_inv_l (l1 ++ e :: l2)). rewrite app_assoc, H1, H2. cbn. solve_Permutation.
  - destruct Hl as (c & Hc & [(_ & _ & -> & ->)|(e & Hn & [(_ & c' & Hp & -> & ->)|[(x & _ & _ & _ & -> & ->)|(_ & -> & ->)]])]); try reflexivity.
    pose proof (concat_insert cs i _ c' Hc) as H1. pose proof (nodes_insert ns m (Some e) None Hn) as H2. cbn in H2.
    apply (Permutation_app_inv_l (c ++ [e])). rewrite <- H2. cbn. rewrite <- !app_assoc. cbn.
    rewrite <- Permutation_middle, app_assoc, H1, Hp. cbn. rewrite <- app_assoc, <- !Permutation_middle. reflexivity.
Qed.
End Conserve.
Theorem C76_moves_conserve : forall (K V : Type) (hash : nat -> K -> N) (eqb : nat -> K -> K -> bool)
    (eeq : nat -> K * V -> K * V -> bool) (E : env) (n : nat) (w : @mstate K V) (s : @state K V) (o : mcall K V),
  real_env E -> mreach hash eqb eeq E n w -> shows E w s -> margs_ok E o -> musable s o -> moves_only s o ->
  exists w' r n' s', exec_multi hash eqb eeq E n w o = Ok (w', r, n') /\ shows E w' s' /\ everything s' ≡ₚ everything s.
Proof.
  intros K V hash eqb eeq E n w s o HE Hr Hs Ho Hu Hm.
  destruct (C76_any_hash_containers K V hash eqb eeq E n w HE Hr) as (s0 & Hs0 & H).
  pose proof (real_env_ok E HE) as HE'. pose proof (mreach_good hash eqb eeq E HE' n w Hr) as Hg.
  rewrite (shows_fun hash eqb E HE' w s Hg Hs) in *. rewrite (shows_fun hash eqb E HE' w s0 Hg Hs0) in *.
  destruct (H o Ho Hu) as (w' & r & n' & s' & Hx & Hs' & Hl). exists w', r, n', s'. split; [assumption|]. split; [assumption|].
  eapply legal_conserves; eassumption.
Qed.
Print Assumptions C76_moves_conserve.

(** A hash that changes from call to call, an equality that answers yes to every eleventh call and an operator==
    of the elements that answers no to every fifth. *)
Definition wild_eeq (n : nat) (a b : N * N) : bool := negb (n mod 5 =? 0).
Definition wild_mops : list (mcall N N) :=
  map (fun k => MOn 0 (CEmplace k k)) (nums 0 20) ++ map (fun k => MOn 1 (CEmplace k 7%N)) (nums 10 20) ++
  [MMerge 0 1; MSwap 0 1; MMove 2 0; MCopy 0 1; MEqual 0 1; MEraseIf 1 (fun j _ => j mod 3 =? 0); MExtract 2 3%N 0;
   MExtractNth 2 1 0; MInsertNode 1 0; MExtractNth 1 4 1; MMerge 1 2].
Definition musableb (s : @state N N) (o : mcall N N) : bool :=
  let '(cs, ns) := s in
  match o with
  | MOn i o => match cs !! i with Some c => match o with CEraseNth j => j <? length c | _ => true end | None => false end
  | MMerge d s | MMove d s => negb (d =? s) && (d <? length cs) && (s <? length cs)
  | MSwap a b | MCopy a b | MEqual a b => (a <? length cs) && (b <? length cs)
  | MEraseIf i _ => i <? length cs
  | MExtract i _ m | MInsertNode i m => (i <? length cs) && (m <? length ns)
  | MExtractNth i j m => match cs !! i with Some c => j <? length c | None => false end && (m <? length ns)
  end.
Lemma musableb_ok s o : musableb s o = true -> musable s o.
Proof.
  destruct s as [cs ns]. destruct o as [i o|d s|a b|d s|d s|a b|i p|i k m|i j m|i m]; cbn [musableb musable]; intros H; rewrite ?andb_true_iff in H; rewrite ?Nat.ltb_lt in H.
  - destruct (cs !! i) as [c|]; [|discriminate]. exists c. split; [reflexivity|]. destruct o; cbn; try exact I. apply Nat.ltb_lt. assumption.
  - destruct H as [[H1 H2] H3]. rewrite negb_true_iff, Nat.eqb_neq in H1. auto.
  - assumption.
  - destruct H as [[H1 H2] H3]. rewrite negb_true_iff, Nat.eqb_neq in H1. auto.
  - assumption.
  - assumption.
  - assumption.
  - assumption.
  - destruct H as [H1 H2]. destruct (cs !! i) as [c|]; [|discriminate]. split; [|assumption]. exists c. split; [reflexivity|]. apply Nat.ltb_lt. assumption.
  - assumption.
Qed.
Definition no_args (o : mcall N N) : bool := match o with MOn _ (CRehash _) | MOn _ (CReserve _) => false | _ => true end.
Fixpoint mgo (hash : nat -> N -> N) (eqb : nat -> N -> N -> bool) eeq (n : nat) (w : @mstate N N) (os : list (mcall N N)) : option (nat * @mstate N N * list (manswer N N)) :=
  match os with
  | [] => Some (n, w, [])
  | o :: os' =>
      if musableb (vw w) o && no_args o then
        match exec_multi hash eqb eeq ex_env n w o with
        | Ok (w', r, n') => match mgo hash eqb eeq n' w' os' with Some (n2, w2, rs) => Some (n2, w2, r :: rs) | None => None end
        | _ => None
        end
      else None
  end.
Lemma mgo_reach hash eqb eeq os : forall n w n' w' rs, mreach hash eqb eeq ex_env n w -> mgo hash eqb eeq n w os = Some (n', w', rs) -> mreach hash eqb eeq ex_env n' w'.
Proof.
  induction os as [|o os IH]; intros n w n' w' rs Hr H; cbn [mgo] in H; [injection H as <- <- <-; assumption|].
  destruct (musableb (vw w) o && no_args o) eqn:Hb; [|discriminate]. apply andb_true_iff in Hb. destruct Hb as [Hb Ha].
  destruct (exec_multi hash eqb eeq ex_env n w o) as [[[w1 r] n1]| | | |] eqn:Hx; try discriminate.
  destruct (mgo hash eqb eeq n1 w1 os) as [[[n2 w2] rs2]|] eqn:Hgo; [|discriminate]. injection H as <- <- <-.
  eapply IH; [|exact Hgo]. eapply mreach_call; [exact Hr| | |apply musableb_ok; exact Hb|exact Hx].
  - apply (shows_vw hash eqb ex_env (real_env_ok _ ex_env_real)). apply (mreach_good hash eqb eeq ex_env (real_env_ok _ ex_env_real) n). assumption.
  - destruct o as [i o| | | | | | | | |]; try exact I. destruct o; try exact I; discriminate.
Qed.
Definition mstart : @mstate N N := (replicate 3 empty_table, replicate 2 None).
Definition mend os : option (nat * @mstate N N * list (manswer N N)) := mgo wild_hash wild_eqb wild_eeq 0 mstart os.
Lemma mend_reach os n w rs : mend os = Some (n, w, rs) -> mreach wild_hash wild_eqb wild_eeq ex_env n w.
Proof. unfold mend. apply mgo_reach. apply mreach_start. Qed.
(** the run above goes to its end; some elements went over and some stayed when the containers were merged *)
Example C76_example : exists n w rs, mend wild_mops = Some (n, w, rs) /\ mreach wild_hash wild_eqb wild_eeq ex_env n w /\
  existsb (fun r => match r with RInserted true _ => true | _ => false end) rs = true /\
  map length (fst (vw w)) = [23; 18; 2] /\ map (fun x : option (N * N) => match x with Some _ => 1 | None => 0 end) (snd w) = [0; 1].
Proof.
  assert (C : match mend wild_mops with
    | Some (_, w, rs) => (existsb (fun r => match r with RInserted true _ => true | _ => false end) rs, map length (fst (vw w)),
        map (fun x : option (N * N) => match x with Some _ => 1 | None => 0 end) (snd w))
    | None => (false, [], []) end = (true, [23; 18; 2], [0; 1])) by (vm_compute; reflexivity).
  destruct (mend wild_mops) as [[[n w] rs]|] eqn:H; [|discriminate C]. exists n, w, rs. split; [reflexivity|].
  split; [exact (mend_reach _ _ _ _ H)|].
  injection C as C1 C2 C3. auto.
Qed.
Print Assumptions C76_example.
(** What is lost.  With proper equalities and a hash that changes from call to call, a container need not equal itself. *)
Theorem C76_self_equal_refuted : exists (hash : nat -> N -> N) n w rs,
  mgo hash (fun _ => N.eqb) (fun _ a b => N.eqb (fst a) (fst b) && N.eqb (snd a) (snd b)) 0 mstart [MOn 0 (CEmplace 1%N 1%N); MEqual 0 0] =
  Some (n, w, rs) /\ rs = [RCall (AInserted true (1, 1)%N); RBool false].
Proof. exists (fun n _ => N.of_nat n). eexists _, _, _. split; vm_compute; reflexivity. Qed.
Print Assumptions C76_self_equal_refuted.
