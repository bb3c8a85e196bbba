(** C85: for_each and for_each_m of the parallel hash containers with an execution policy: the submaps are visited by tasks that run in
    any interleaving (phmap.hpp 3996-4010).  Each task holds the lock of its own submap only; calls of other threads are in C60. *)
From stdpp Require Import list list_numbers.
From Coq Require Import Arith NArith ZArith Lia.
From Coq Require Import ZifyBool ZifyNat ZifyN.
From Verif.Common Require Import Res Word.
From Verif.Swiss Require Import Group GroupSpec GroupProof Model Probe ProbeProof Inv TableInv Resize Ops MapSpec History Multi MultiSpec MultiProof MultiHistory PropsTable PropsMulti.
From Verif.Par Require Import Seq SeqSpec SeqProof PropsSeq.
Local Open Scope nat_scope.
Local Open Scope res_scope.

Section Model.
Context {K V : Type} (E : env) (f : K * V -> V).
Notation table := (table K V).
Notation elt := (K * V)%type.
(* std::for_each(inner.set_.begin(), inner.set_.end(), fCallback) of one submap: the table and the iterator of the task *)
Notation task := (table * nat)%type.
Fixpoint starts (ps : list table) : res (list task) :=
  match ps with
  | [] => Ok []
  | t :: ps' => let* j := begin_it E t in let* r := starts ps' in Ok ((t, j) :: r)
  end.
(* one round of that loop: the callback is given the element and leaves the mapped value [f e] (for_each: f = snd) *)
Definition visit (x : task) : res (option (elt * task)) :=
  let '(t, j) := x in
  if j =? t_cap t then Ok None
  else
    let* e := deref t j in
    let* t' := assign_at t j (f e) in
    let* j' := next_it E t' j in
    Ok (Some (e, (t', j'))).
(* the policy chooses which task goes on; a finished task does nothing.  The log has the submap and the element of every call of the
   callback, in order *)
Fixpoint tasks (sched : list nat) (s : list task) (log : list (nat * elt)) : res (list task * list (nat * elt)) :=
  match sched with
  | [] => Ok (s, log)
  | i :: sched' =>
      let* x := load s i in
      let* r := visit x in
      match r with
      | None => tasks sched' s log
      | Some (e, x') => tasks sched' (<[i := x']> s) (log ++ [(i, e)])
      end
  end.
Definition for_each_policy (sched : list nat) (ps : list table) : res (list task * list (nat * elt)) :=
  let* s := starts ps in tasks sched s [].
End Model.

Definition turns (i : nat) (sched : list nat) : nat := length (List.filter (Nat.eqb i) sched).
(* the elements that the callback got from submap i, in order *)
Definition seen_in {K V} (i : nat) (log : list (nat * (K * V))) : list (K * V) := map snd (List.filter (fun x => fst x =? i) log).

Section Facts.
Context {K V : Type} (hash : K -> N) (eqb : K -> K -> bool) (E : env) (f : K * V -> V).
Context (HE : env_ok E) (HK : KeyOK hash eqb).
Notation table := (table K V).
Notation elt := (K * V)%type.
Definition upd (e : elt) : elt := (fst e, f e).
Definition left_of (x : table * nat) : list elt := elems (drop (snd x) (t_slots (fst x))).
Definition inv1 (t0 : table) (c : nat) (seen : list elt) (x : table * nat) : Prop :=
  pe t0 = seen ++ left_of x /\ elems (take (snd x) (t_slots (fst x))) = map upd seen /\ good hash eqb E (fst x) /\ at_slot (fst x) (snd x) /\
  length (left_of x) <= length (pe t0) - c.
Lemma elems_two (sl : list (option elt)) j : elems sl = elems (take j sl) ++ elems (drop j sl).
Proof using. rewrite <- (take_drop j sl) at 1. unfold elems. apply omap_app. Qed.
Lemma inv1_start t0 : good hash eqb E t0 -> exists j, begin_it E t0 = Ok j /\ inv1 t0 0 [] (t0, j) /\ left_of (t0, j) = pe t0.
Proof using HE HK.
  intros Hg. destruct (good_begin hash eqb E HE HK t0 Hg) as (j & Hj & Hat & Hel). exists j. split; [exact Hj|]. split; [|exact Hel].
  unfold inv1, left_of. cbn [fst snd]. rewrite Hel. split; [reflexivity|]. split; [|split; [exact Hg|split; [exact Hat|lia]]].
  pose proof (elems_two (t_slots t0) j) as H2. rewrite Hel in H2. fold (pe t0) in H2. apply (f_equal length) in H2. rewrite app_length in H2.
  destruct (elems (take j (t_slots t0))); [reflexivity|]. cbn [length] in H2. lia.
Qed.
Lemma inv1_visit t0 c seen x : inv1 t0 c seen x ->
  (visit E f x = Ok None /\ left_of x = []) \/
  exists e x', visit E f x = Ok (Some (e, x')) /\ left_of x = e :: left_of x' /\ inv1 t0 (S c) (seen ++ [e]) x'.
Proof using HE HK.
  destruct x as [t j]. intros (H1 & H2 & Hg & [Hle Hat] & Hc). unfold left_of in *. cbn [fst snd] in *. unfold visit.
  destruct (Nat.eqb_spec j (t_cap t)) as [Hj|Hj].
  - left. split; [reflexivity|]. destruct Hg as [->|Ht]; [rewrite Hj; reflexivity|]. rewrite drop_ge; [reflexivity|]. rewrite (ti_slen _ _ _ _ (tv_0 _ _ _ _ Ht)). lia.
  - right. destruct Hat as [?|(e & He)]; [contradiction|]. destruct Hg as [->|Ht]; [discriminate|].
    destruct (assign_ok hash eqb E HE HK t j e (f e) Ht He) as (t' & Has & Ht' & Hsl & _ & Hcap).
    destruct (next_ok hash eqb E HE HK t' j Ht' ltac:(lia)) as (j' & Hj' & Hr & Hs & Hd & _).
    assert (Hlj : j < length (t_slots t)) by (apply lookup_lt_Some in He; exact He).
    exists e, (t', j'). unfold deref. rewrite (load_some _ _ _ He). cbn [rbind of_option]. rewrite Has. cbn [rbind]. rewrite Hj'. cbn [rbind]. split; [reflexivity|].
    assert (Hdrop : drop (S j) (t_slots t') = drop (S j) (t_slots t)) by (rewrite Hsl; apply drop_insert_gt; lia).
    assert (Hleft : elems (drop j (t_slots t)) = e :: elems (drop j' (t_slots t'))).
    { rewrite (drop_S _ _ _ He). change (e :: elems (drop (S j) (t_slots t)) = e :: elems (drop j' (t_slots t'))). rewrite <- Hdrop, Hd. reflexivity. }
    split; [exact Hleft|]. unfold inv1, left_of. cbn [fst snd]. rewrite Hleft in *. split; [rewrite H1, <- app_assoc; reflexivity|]. split.
    + assert (Hl' : t_slots t' !! j = Some (Some (upd e))) by (rewrite Hsl; apply list_lookup_insert; exact Hlj).
      pose proof (elems_two (t_slots t') (S j)) as A. rewrite (elems_two (t_slots t') j'), Hd in A. apply app_inv_tail in A. rewrite A.
      rewrite (take_S_r _ _ _ Hl'), map_app, <- H2. unfold elems. rewrite omap_app. rewrite Hsl, take_insert by lia. reflexivity.
    + split; [right; exact Ht'|]. split; [split; [lia|exact Hs]|]. cbn [length] in Hc. lia.
Qed.
Lemma flat_insert {A B} (F : A -> list B) (s : list A) i x x' e : s !! i = Some x -> F x = e :: F x' -> flat_map F s ≡ₚ e :: flat_map F (<[i := x']> s).
Proof using.
  revert i. induction s as [|y s IH]; intros [|i] Hi HF; cbn in Hi; try discriminate.
  - injection Hi as ->. cbn. rewrite HF. reflexivity.
  - cbn. rewrite (IH i Hi HF). symmetry. apply Permutation_middle.
Qed.
Lemma same_at {A} (s : list A) i x y : s !! i = Some x -> s !! i = Some y -> x = y.
Proof using. congruence. Qed.
Lemma starts_ok ps : Forall (good hash eqb E) ps -> exists s, starts E ps = Ok s /\ length s = length ps /\
  (forall i t0, ps !! i = Some t0 -> exists x, s !! i = Some x /\ inv1 t0 0 [] x) /\ flat_map left_of s = pelems ps.
Proof using HE HK.
  induction 1 as [|t ps Hg Hps (s & H1 & H2 & H3 & H4)]; [exists []; repeat split; discriminate|].
  destruct (inv1_start t Hg) as (j & Hj & Hi & Hl). exists ((t, j) :: s). cbn [starts]. rewrite Hj. cbn [rbind]. rewrite H1. cbn [rbind]. split; [reflexivity|].
  split; [cbn; lia|]. split; [|cbn [flat_map]; rewrite Hl, H4; reflexivity].
  intros [|i] t0 Ht0; cbn in Ht0; [injection Ht0 as <-; exists (t, j); split; [reflexivity|exact Hi]|]. apply H3. exact Ht0.
Qed.
Lemma seen_app i (log : list (nat * elt)) k e : seen_in i (log ++ [(k, e)]) = seen_in i log ++ (if k =? i then [e] else []).
Proof using. unfold seen_in. rewrite List.filter_app, map_app. cbn. destruct (k =? i); reflexivity. Qed.
Lemma tasks_ok (ps : list table) sched : forall c s log, Forall (fun i => i < length ps) sched -> length s = length ps ->
  (forall i t0, ps !! i = Some t0 -> exists x, s !! i = Some x /\ inv1 t0 (c i) (seen_in i log) x) ->
  map snd log ++ flat_map left_of s ≡ₚ pelems ps ->
  exists s' log', tasks E f sched s log = Ok (s', log') /\ length s' = length ps /\
    (forall i t0, ps !! i = Some t0 -> exists x, s' !! i = Some x /\ inv1 t0 (c i + turns i sched) (seen_in i log') x) /\
    map snd log' ++ flat_map left_of s' ≡ₚ pelems ps.
Proof using HE HK.
  induction sched as [|k sched IH]; intros c s log Hs Hl Hi Hp.
  - exists s, log. split; [reflexivity|]. split; [exact Hl|]. split; [|exact Hp]. intros i t0 H0. destruct (Hi i t0 H0) as (x & Hx & Hv). exists x. unfold turns. cbn. rewrite Nat.add_0_r. auto.
  - apply Forall_cons in Hs as [Hk Hs]. destruct (lookup_lt_is_Some_2 ps k Hk) as [t0 Ht0]. destruct (Hi k t0 Ht0) as (x & Hx & Hv).
    cbn [tasks]. rewrite (load_some _ _ _ Hx). cbn [rbind].
    assert (Hturn : forall i, (if i =? k then S (c i) else c i) + turns i sched = c i + turns i (k :: sched)).
    { intros i. unfold turns. cbn [List.filter]. destruct (i =? k); cbn [length]; lia. }
    destruct (inv1_visit t0 _ _ x Hv) as [[Hn Hnil]|(e & x' & Hn & Hle & Hv')]; rewrite Hn; cbn [rbind].
    + destruct (IH (fun i => if i =? k then S (c i) else c i) s log Hs Hl) as (s' & log' & R1 & R2 & R3 & R4); [|exact Hp|].
      { intros i t1 H1. destruct (Hi i t1 H1) as (y & Hy & Hvy). exists y. split; [exact Hy|]. destruct (Nat.eqb_spec i k) as [->|]; [|exact Hvy].
        rewrite Hx in Hy. injection Hy as <-. destruct Hvy as (A1 & A2 & A3 & A4 & A5). repeat (split; [assumption|]). rewrite Hnil. cbn. lia. }
      exists s', log'. split; [exact R1|]. split; [exact R2|]. split; [|exact R4]. intros i t1 H1. rewrite <- Hturn. apply R3. exact H1.
    + destruct (IH (fun i => if i =? k then S (c i) else c i) (<[k := x']> s) (log ++ [(k, e)]) Hs) as (s' & log' & R1 & R2 & R3 & R4).
      * rewrite insert_length. exact Hl.
      * intros i t1 H1. rewrite seen_app. destruct (Nat.eqb_spec i k) as [->|Hne].
        -- exists x'. rewrite list_lookup_insert by lia. rewrite Nat.eqb_refl. split; [reflexivity|]. rewrite Ht0 in H1. injection H1 as <-. exact Hv'.
        -- destruct (Hi i t1 H1) as (y & Hy & Hvy). exists y. rewrite list_lookup_insert_ne by congruence. destruct (Nat.eqb_spec k i); [congruence|]. rewrite app_nil_r. auto.
      * rewrite map_app, <- app_assoc. cbn [map snd app]. rewrite <- (flat_insert left_of s k x x' e Hx Hle). exact Hp.
      * exists s', log'. split; [exact R1|]. split; [exact R2|]. split; [|exact R4]. intros i t1 H1. rewrite <- Hturn. apply R3. exact H1.
Qed.
End Facts.

(** In every parallel container that a program of C13 can leave, for every callback and every schedule of the tasks: the calls are made and
    none is undefined; the callback is given no element twice, and the elements of one submap in the order of a traversal.  Once every
    task had as many turns as its submap has elements, all tasks are done, the callback was given every element exactly once, and
    the container is the one that a traversal with the callback leaves, whatever the schedule. *)
Theorem C85_policy : forall (K V : Type) (hash : K -> N) (eqb : K -> K -> bool) (eeq : K * V -> K * V -> bool)
    (E : env) (lg a b : nat) (os : list (mop K V)) cs ns rs (c : nat) (ps : list (table K V)) (f : K * V -> V) (sched : list nat),
  real_env E -> KeyOK hash eqb -> EltOK eqb eeq -> lg <= 12 -> Forall (pmop_ok E lg a b) os ->
  pm_run hash eqb eeq E lg (replicate a (p_empty lg)) (replicate b None) os = Ok (cs, ns, rs) -> cs !! c = Some ps ->
  Forall (fun i => i < length ps) sched ->
  exists l s log, p_to_list E ps = Ok l /\ for_each_policy E f sched ps = Ok (s, log) /\
    (exists rest, Permutation (map snd log ++ rest) l) /\
    (forall i t, ps !! i = Some t -> exists lt rest, to_list E t = Ok lt /\ lt = seen_in i log ++ rest) /\
    ((forall i t, ps !! i = Some t -> t_size t <= turns i sched) ->
       (forall i x, s !! i = Some x -> snd x = t_cap (fst x)) /\ Permutation (map snd log) l /\
       (forall i t, ps !! i = Some t -> to_list E t = Ok (seen_in i log)) /\
       p_to_list E (map fst s) = Ok (map (fun e => (fst e, f e)) l)).
Proof.
  intros K V hash eqb eeq E lg a b os cs ns rs c ps f sched HE0 HK HQ Hlg Ho Hrun Hi Hsch. pose proof (real_env_ok E HE0) as HE.
  destruct (pm_run_ok hash eqb E lg HE HK Hlg eeq HQ os (replicate a (p_empty lg)) (replicate b None) (replicate a []))
    as (cs2 & ns2 & rs2 & ms & H1 & _ & HF); [apply pm_start|rewrite !replicate_length; assumption|].
  rewrite Hrun in H1. injection H1 as <- <- <-. destruct (Forall2_lookup_l _ _ _ _ _ HF Hi) as (m & _ & [Hg _]).
  pose proof (pg_good _ _ _ _ _ Hg) as Hgood. assert (Hlen : 1 <= length ps) by (rewrite (pg_len _ _ _ _ _ Hg); apply num_pos).
  destruct (starts_ok hash eqb E f HE HK ps Hgood) as (s0 & Hs0 & Hl0 & Hi0 & Hf0).
  destruct (tasks_ok hash eqb E f HE HK ps sched (fun _ => 0) s0 [] Hsch Hl0) as (s & log & Ht & Hl & Hinv & Hperm); [exact Hi0|cbn; rewrite Hf0; reflexivity|].
  assert (Htl : forall t : table K V, good hash eqb E t -> to_list E t = Ok (pe t)) by (intros t Hgt; destruct (iterate_ok hash eqb E HE HK t Hgt) as (is & _ & H & _); exact H).
  exists (pelems ps), s, log. split; [apply (p_to_list_ok hash eqb E HE HK); assumption|].
  split; [unfold for_each_policy; rewrite Hs0; exact Ht|]. split; [exists (flat_map left_of s); exact Hperm|]. split.
  { intros i t Hit. destruct (Hinv i t Hit) as (x & _ & Hx & _). exists (pe t), (left_of x). split; [apply Htl; eapply Forall_lookup_1; eassumption|exact Hx]. }
  intros Hturns.
  assert (Hdone : forall i t, ps !! i = Some t -> exists x, s !! i = Some x /\ left_of x = [] /\ pe t = seen_in i log /\ pe (fst x) = map (upd f) (pe t) /\ good hash eqb E (fst x) /\ snd x = t_cap (fst x)).
  { intros i t Hit. destruct (Hinv i t Hit) as (x & Hx & A1 & A2 & A3 & A4 & A5). exists x. split; [exact Hx|].
    assert (Hgt : good hash eqb E t) by (eapply Forall_lookup_1; eassumption).
    assert (Hnil : left_of x = []).
    { pose proof (Hturns i t Hit) as Htu. rewrite (good_size hash eqb E t Hgt) in Htu. fold (pe t) in Htu. destruct (left_of x); [reflexivity|cbn [length] in A5; unfold pe in *; lia]. }
    split; [exact Hnil|]. rewrite Hnil, app_nil_r in A1. split; [exact A1|]. split; [|split; [exact A3|]].
    - unfold pe at 1. rewrite (elems_two _ (snd x)), A2. fold (left_of x). rewrite Hnil, app_nil_r, A1. reflexivity.
    - destruct A4 as [_ [?|(e & He)]]; [assumption|]. unfold left_of in Hnil. rewrite (drop_S _ _ _ He) in Hnil. discriminate. }
  assert (Hback : forall i x, s !! i = Some x -> exists t, ps !! i = Some t) by (intros i x Hx; apply lookup_lt_is_Some_2; apply lookup_lt_Some in Hx; lia).
  split; [|split; [|split]].
  - intros i x Hx. destruct (Hback i x Hx) as [t Hit]. destruct (Hdone i t Hit) as (y & Hy & _ & _ & _ & _ & Hc). assert (y = x) as -> by exact (same_at _ _ _ _ Hy Hx). exact Hc.
  - rewrite <- Hperm. assert (Hnil : flat_map left_of s = []); [|rewrite Hnil, app_nil_r; reflexivity].
    assert (Hall : Forall (fun x => left_of x = []) s).
    { apply Forall_lookup_2. intros i x Hx. destruct (Hback i x Hx) as [t Hit]. destruct (Hdone i t Hit) as (y & Hy & Hn & _). assert (y = x) as -> by exact (same_at _ _ _ _ Hy Hx). exact Hn. }
    clear - Hall. induction Hall as [|x s Hx Hs IH]; [reflexivity|]. cbn. rewrite Hx, IH. reflexivity.
  - intros i t Hit. destruct (Hdone i t Hit) as (_ & _ & _ & <- & _). apply Htl. eapply Forall_lookup_1; eassumption.
  - assert (Hfg : Forall (good hash eqb E) (map fst s)).
    { apply Forall_map, Forall_lookup_2. intros i x Hx. destruct (Hback i x Hx) as [t Hit]. destruct (Hdone i t Hit) as (y & Hy & _ & _ & _ & Hgy & _). assert (y = x) as -> by exact (same_at _ _ _ _ Hy Hx). exact Hgy. }
    rewrite (p_to_list_ok hash eqb E HE HK) by (try exact Hfg; rewrite map_length; lia). f_equal.
    assert (Hall : Forall2 (fun t x => pe (fst x) = map (upd f) (pe t)) ps s).
    { apply Forall2_same_length_lookup_2; [lia|]. intros i t x Hit Hx. destruct (Hdone i t Hit) as (y & Hy & _ & _ & He & _). assert (y = x) as -> by exact (same_at _ _ _ _ Hy Hx). exact He. }
    clear - Hall. induction Hall as [|t x ps s Hx Hs IH]; [reflexivity|]. cbn. rewrite map_app. f_equal; [exact Hx|exact IH].
Qed.
Print Assumptions C85_policy.

(** six elements in four submaps (of 2, 2, 1 and 1), the tasks taking turns *)
Example C85_example : Forall (pmop_ok ex_env 2 1 0) (map (MOne 0) (ins (nums 0 6))) /\
  match pm_run exp_hash N.eqb ex_eeq ex_env 2 [p_empty 2] [] (map (MOne 0) (ins (nums 0 6))) with
  | Ok ([ps], _, _) =>
      Some (map t_size ps,
            match for_each_policy ex_env (fun e => snd e + 10)%N [3; 0; 1; 2; 1; 3; 0] ps with
            | Ok (s, log) => Some (map fst log, map (fun x => fst (snd x)) log, p_to_list ex_env (map fst s))
            | _ => None
            end)
  | _ => None
  end = Some ([2; 2; 1; 1], Some ([3; 0; 1; 2; 1; 0], [3; 0; 5; 2; 1; 4]%N, Ok [(0, 10); (4, 14); (5, 15); (1, 11); (2, 12); (3, 13)]%N)).
Proof.
  split; [|vm_compute; reflexivity].
  apply Forall_forall. intros o Ho. apply elem_of_list_fmap in Ho. destruct Ho as (x & -> & Hx).
  apply elem_of_list_fmap in Hx. destruct Hx as (k & -> & _). cbn. split; [lia|exact I].
Qed.
