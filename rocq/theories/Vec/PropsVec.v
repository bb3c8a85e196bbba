(** Properties of gtl::vector: C37 to C40.
    [reach w] are the worlds that arbitrary programs over any number of vectors arrive at, with exceptions anywhere;
    [view w] are the sequences of elements that the vectors hold. *)
From stdpp Require Import gmap list infinite fin_map_dom.
From Coq Require Import NArith Lia ZifyBool ZifyNat ZifyN.
From Verif.Common Require Import Word.
From Verif.Vec Require Import Model Wp Ranges Segs Ops1 Ops2 Ops3 Ops4 Ops5 Machine Refine.
Local Open Scope nat_scope.

Section Props.
Context {V : Type} (tr : traits) (moved : V -> V) (dflt : V).
Notation exec := (exec tr moved dflt).
Notation reach := (reach tr moved dflt).
Notation spec := (spec dflt).
Notation pre := (pre tr dflt).
Notation Inv := (Inv (V := V) tr).
(** element sizes and the largest allocation are those of a 64-bit machine *)
Definition machine64 : Prop := (0 < t_size tr < 2 ^ 63)%N /\ (t_max tr < 2 ^ 63)%N.

Lemma wp_world {A} (m : @M V A) Q E w : wp m Q E (w_heap w) (w_regs w) ->
  match m w with Ret a w' => Q a (w_heap w') (w_regs w') | Thr w' => E (w_heap w') (w_regs w') | Wrong => False end.
Proof. intros H. specialize (H (w_orc w)). destruct w as [h rg o]. cbn [w_heap w_regs w_orc] in H. destruct (m _); exact H. Qed.
Lemma view_inv w L : Inv (w_heap w) (w_regs w) L -> view w = L.
Proof. intros H. destruct w as [h rg o]. exact (Inv_view tr h rg L o H). Qed.
Lemma reach_inv w : machine64 -> reach w -> Inv (w_heap w) (w_regs w) (view w).
Proof.
  intros Hm. induction 1 as [k orc|w o x w' HR IH Hp E|w o w' HR IH Hp E].
  - rewrite (view_inv (start k orc) (replicate k [])); apply Inv_init.
  - pose proof (wp_world _ _ _ _ (step_ok tr moved dflt o _ _ _ Hm IH Hp)) as H. rewrite E in H. destruct H as (L' & _ & H). rewrite (view_inv _ _ H). assumption.
  - pose proof (wp_world _ _ _ _ (step_ok tr moved dflt o _ _ _ Hm IH Hp)) as H. rewrite E in H. destruct H as (L' & _ & H). rewrite (view_inv _ _ H). assumption.
Qed.

(** C37: a call that returns has returned what it should, and done to the sequences what it should. *)
Theorem C37_sequence w o : machine64 -> reach w -> pre o (view w) ->
  exec o w <> Wrong /\ forall x w', exec o w = Ret x w' -> spec o (view w) = Some (x, view w').
Proof.
  intros Hm HR Hp. pose proof (wp_world _ _ _ _ (step_ok tr moved dflt o _ _ _ Hm (reach_inv _ Hm HR) Hp)) as H.
  destruct (exec o w) as [x w'|w'|]; [|split; congruence|destruct H]. split; [discriminate|]. intros x1 w1 [= <- <-]. destruct H as (L' & H1 & H2). rewrite (view_inv _ _ H2). assumption.
Qed.
(** Whole programs: if no call throws, the calls return what the sequences say, and the last sequences are those of the specification. *)
Fixpoint run (os : list (@op V)) (w : @world V) : option (list obs * @world V) :=
  match os with
  | [] => Some ([], w)
  | o :: os' => match exec o w with Ret x w' => r ← run os' w'; Some (x :: r.1, r.2) | _ => None end
  end.
Fixpoint spec_run (os : list (@op V)) (L : list (list V)) : option (list obs * list (list V)) :=
  match os with
  | [] => Some ([], L)
  | o :: os' => r ← spec o L; t ← spec_run os' r.2; Some (r.1 :: t.1, t.2)
  end.
Fixpoint pre_run (os : list (@op V)) (L : list (list V)) : Prop :=
  match os with [] => True | o :: os' => pre o L /\ forall x L', spec o L = Some (x, L') -> pre_run os' L' end.
Theorem C37_program os : forall w xs w', machine64 -> reach w -> pre_run os (view w) -> run os w = Some (xs, w') -> spec_run os (view w) = Some (xs, view w').
Proof.
  induction os as [|o os IH]; intros w xs w' Hm HR Hp Hrun; cbn [run spec_run pre_run] in *; [injection Hrun as <- <-; reflexivity|].
  destruct Hp as [Hp Hps]. destruct (C37_sequence w o Hm HR Hp) as [_ HS]. destruct (exec o w) as [x w1| |] eqn:E; [|discriminate|discriminate]. specialize (HS x w1 eq_refl).
  destruct (run os w1) as [[ys w2]|] eqn:E2; [|discriminate]. injection Hrun as <- <-. rewrite HS. cbn [mbind option_bind fst snd]. rewrite (IH w1 ys w2); [reflexivity|assumption|eapply reach_ret; eassumption|eapply Hps; eassumption|assumption].
Qed.
(** size() is the number of elements and at most capacity() *)
Theorem C37_size_capacity w r v xs : machine64 -> reach w -> w_regs w !! r = Some v -> view w !! r = Some xs -> v_sz v = length xs /\ v_sz v <= v_cap v.
Proof.
  intros Hm HR Hr Hx. pose proof (Inv_St _ _ _ _ _ _ _ (reach_inv _ Hm HR) Hr Hx) as HS. split; [eapply St_sz|eapply St_le]; eassumption.
Qed.

(** C38: no call of any program constructs over a live object, or reads, assigns or destroys anything but a live object of
    an allocated block, or frees a block that holds live objects or is not allocated: that is what the outcome [Wrong] stands for. *)
Theorem C38_lifetimes w o : machine64 -> reach w -> pre o (view w) -> exec o w <> Wrong.
Proof. intros. apply C37_sequence; assumption. Qed.
(** Allocated blocks and vectors correspond one to one; the live objects of a block are exactly the elements of its vector. *)
Theorem C38_no_leak w : machine64 -> reach w ->
  (forall b cs, w_heap w !! b = Some cs -> exists r v xs, w_regs w !! r = Some v /\ v_blk v = Some b /\ view w !! r = Some xs /\ length cs = v_cap v /\
     take (length xs) cs = Live <$> xs /\ (t_triv tr = false -> drop (length xs) cs = replicate (v_cap v - length xs) Raw)) /\
  (forall r q v o b, w_regs w !! r = Some v -> w_regs w !! q = Some o -> v_blk v = Some b -> v_blk o = Some b -> r = q) /\
  (forall r v b, w_regs w !! r = Some v -> v_blk v = Some b -> is_Some (w_heap w !! b)).
Proof.
  intros Hm HR. pose proof (reach_inv _ Hm HR) as (Hlen & Hv & Hd & Ho). split; [|split; [exact Hd|]].
  - intros b cs Hb. destruct (Ho b) as (r & v & Hr & Hvb); [eauto|]. assert (r < length (view w)) by (rewrite <- Hlen; apply lookup_lt_Some in Hr; assumption). destruct (lookup_lt_is_Some_2 (view w) r) as [xs Hx]; [assumption|].
    exists r, v, xs. destruct (Hv _ _ _ Hr Hx) as (Hl & _ & H1). rewrite Hvb in H1. destruct H1 as (R & H1 & HR1 & Hc). assert (cs = (Live <$> xs) ++ R) as -> by congruence.
    split; [assumption|]. split; [assumption|]. split; [assumption|]. rewrite app_length, fmap_length. split; [assumption|]. replace (length xs) with (length (Live <$> xs)) at 1 2 by apply fmap_length. rewrite take_app, drop_app. split; [reflexivity|].
    intros Ht. replace (v_cap v - length xs) with (length R) by lia. clear -HR1 Ht. induction HR1 as [|c R Hc _ IH]; [reflexivity|]. cbn [length replicate]. f_equal; [|assumption]. destruct Hc as [Hc| ->]; [congruence|reflexivity].
  - intros r v b Hr Hvb. assert (r < length (view w)) by (rewrite <- Hlen; apply lookup_lt_Some in Hr; assumption). destruct (lookup_lt_is_Some_2 (view w) r) as [xs Hx]; [assumption|]. destruct (Hv _ _ _ Hr Hx) as (_ & _ & H1). rewrite Hvb in H1. destruct H1 as (R & -> & _). eauto.
Qed.
(** Exceptions: a call that throws leaves every vector in order (so that [reach] goes on from it), all vectors but the destination
    unchanged, and the destination, too, for calls that only append or reallocate. *)
Theorem C38_exceptions w o w' : machine64 -> reach w -> pre o (view w) -> exec o w = Thr w' -> after_throw tr o (view w) (view w').
Proof.
  intros Hm HR Hp E. pose proof (wp_world _ _ _ _ (step_ok tr moved dflt o _ _ _ Hm (reach_inv _ Hm HR) Hp)) as H.
  rewrite E in H. destruct H as (L' & H1 & H2). rewrite (view_inv _ _ H2). assumption.
Qed.
(** Destroying all vectors frees all memory. *)
Fixpoint destroy_all (n : nat) (w : @world V) : option (@world V) :=
  match n with O => Some w | S n' => match exec (CtorEmpty n') w with Ret _ w' => destroy_all n' w' | _ => None end end.
Theorem C38_all_freed w : machine64 -> reach w -> exists w', destroy_all (length (w_regs w)) w = Some w' /\ w_heap w' = ∅.
Proof.
  intros Hm HR. cut (forall n w, reach w -> n <= length (w_regs w) -> (forall r v, n <= r -> w_regs w !! r = Some v -> v_blk v = None) -> exists w', destroy_all n w = Some w' /\ w_heap w' = ∅).
  { intros H. apply (H _ w HR); [lia|]. intros r v Hle Hr. apply lookup_lt_Some in Hr. lia. }
  clear w HR. induction n as [|n IH]; intros w HR Hn Hlast; cbn [destroy_all].
  - exists w. split; [reflexivity|]. apply map_empty. intros b. destruct (w_heap w !! b) as [cs|] eqn:Eb; [|reflexivity]. exfalso.
    destruct (reach_inv _ Hm HR) as (_ & _ & _ & Ho). destruct (Ho b) as (r & v & Hr & Hb); [eauto|]. rewrite (Hlast r v) in Hb; [discriminate|lia|assumption].
  - pose proof (reach_inv _ Hm HR) as HI. assert (Hlen : length (w_regs w) = length (view w)) by apply HI.
    assert (Hp : pre (CtorEmpty n) (view w)) by (split; [eauto|split; [cbn [dst]; lia|exact I]]).
    destruct (lookup_lt_is_Some_2 (w_regs w) n) as [v Hr]; [lia|]. destruct (lookup_lt_is_Some_2 (view w) n) as [xs Hx]; [lia|].
    assert (HD : wp (exec (CtorEmpty n)) (fun _ h' rg' => rg' = <[n := mkV None 0 0]> (w_regs w)) (fun _ _ => False) (w_heap w) (w_regs w)).
    { cbn [Machine.exec]. unfold none. apply wp_bind. eapply wp_dtor; [exact Hr|eapply Inv_St; eassumption|]. apply wp_ret. reflexivity. }
    apply wp_world in HD. destruct (exec (CtorEmpty n) w) as [x w'| |] eqn:E; [|destruct HD|destruct HD]. apply IH; [eapply reach_ret; eassumption|rewrite HD, insert_length; lia|].
    intros r o Hrn Ho. rewrite HD in Ho. destruct (decide (r = n)) as [->|Hne]; [rewrite list_lookup_insert in Ho by lia; injection Ho as <-; reflexivity|]. rewrite list_lookup_insert_ne in Ho by congruence. apply (Hlast r); [lia|assumption].
Qed.

(** C39: an element of the vector itself as the argument *)
Theorem C39_own_element w r xs i x w' y : machine64 -> reach w -> view w !! r = Some xs -> xs !! i = Some x ->
  (exec (PushBack r (AEl r i) false) w = Ret y w' -> view w' !! r = Some (xs ++ [x])) /\
  (forall pos, pos <= length xs -> fits64 tr (length xs + 1) -> exec (InsertCopy r pos (AEl r i)) w = Ret y w' -> view w' !! r = Some (take pos xs ++ x :: drop pos xs)) /\
  (forall pos n, pos <= length xs -> fits64 tr (length xs + n) -> exec (InsertFill r pos n (AEl r i)) w = Ret y w' -> view w' !! r = Some (take pos xs ++ replicate n x ++ drop pos xs)) /\
  (forall n, fits64 tr n -> exec (ResizeWith r n (AEl r i)) w = Ret y w' -> view w' !! r = Some (take n xs ++ replicate (n - length xs) x)) /\
  (forall n, fits64 tr n -> exec (AssignFill r n (AEl r i)) w = Ret y w' -> view w' !! r = Some (replicate n x)).
Proof.
  intros Hm HR Hx Hi. assert (Hrl : r < length (view w)) by (apply lookup_lt_Some in Hx; assumption).
  assert (G : forall o L', exec o w = Ret y w' -> spec o (view w) = Some L' -> dst o = r -> call_ok tr o (view w) -> L'.2 = view w').
  { intros o L' E Hs Hd Hc. destruct (C37_sequence w o Hm HR) as [_ H]; [split; [eauto|split; [rewrite Hd; assumption|assumption]]|]. specialize (H y w' E). rewrite Hs in H. injection H as ->. reflexivity. }
  assert (Ha : sval (view w) (AEl r i) = Some x) by (cbn [sval]; rewrite Hx; exact Hi).
  split; [|split; [|split; [|split]]].
  - intros E. eapply G in E; [|cbn [Machine.spec]; rewrite Hx, Ha; reflexivity|reflexivity|cbn; congruence]. rewrite <- E. apply list_lookup_insert. assumption.
  - intros pos Hp Hf E. eapply G in E; [|cbn [Machine.spec]; rewrite Hx, Ha; reflexivity|reflexivity|cbn [call_ok]; unfold within, grows; rewrite Hx; auto]. rewrite <- E. apply list_lookup_insert. assumption.
  - intros pos n Hp Hf E. eapply G in E; [|cbn [Machine.spec]; rewrite Hx, Ha; reflexivity|reflexivity|cbn [call_ok]; unfold within, grows; rewrite Hx; auto]. rewrite <- E. apply list_lookup_insert. assumption.
  - intros n Hf E. eapply G in E; [|cbn [Machine.spec]; rewrite Hx, Ha; reflexivity|reflexivity|exact Hf]. rewrite <- E. apply list_lookup_insert. assumption.
  - intros n Hf E. eapply G in E; [|cbn [Machine.spec]; rewrite Ha; reflexivity|reflexivity|exact Hf]. rewrite <- E. apply list_lookup_insert. assumption.
Qed.
(** emplace with an element of the vector itself: right at the end, and when the vector has to grow.  Missing: with spare capacity, before the end; refuted below. *)
Theorem C39_emplace_partial w r v xs i x pos w' y : machine64 -> reach w -> w_regs w !! r = Some v -> view w !! r = Some xs -> xs !! i = Some x -> pos <= length xs -> fits64 tr (length xs + 1) ->
  pos = length xs \/ v_sz v = v_cap v -> exec (Emplace r pos (AEl r i) false) w <> Wrong /\
  (exec (Emplace r pos (AEl r i) false) w = Ret y w' -> view w' !! r = Some (take pos xs ++ x :: drop pos xs)).
Proof.
  intros Hm HR Hr Hx Hi Hpos Hf Hcase. pose proof (reach_inv _ Hm HR) as HI. pose proof (Inv_St _ _ _ _ _ _ _ HI Hr Hx) as HS.
  assert (W : wp (exec (Emplace r pos (AEl r i) false)) (fun _ h' rg' => Inv h' rg' (<[r := take pos xs ++ x :: drop pos xs]> (view w))) (fun _ _ => True) (w_heap w) (w_regs w)).
  { cbn [Machine.exec]. apply (wp_pos tr moved dflt), wp_bind. eapply (wp_resolve tr moved dflt); [exact HI|exact Hr|exact Hx|cbn [sval]; rewrite Hx; exact Hi|]. intros a' Ha Hmv _.
    eapply wp_emplace; [assumption|exact Hr|exact HS|assumption|assumption|exact Ha|discriminate| | |auto].
    - intros H1 H2. pose proof (St_sz _ _ _ _ HS). lia.
    - intros v' h' HS' _ _. eapply Inv_back; eassumption. }
  apply wp_world in W. destruct (exec _ w) as [x1 w1|w1|]; [|split; congruence|destruct W]. split; [discriminate|]. intros [= <- <-]. rewrite (view_inv _ _ W). apply list_lookup_insert. apply lookup_lt_Some in Hx. assumption.
Qed.

(** C40: capacity.  After reserve(n), n elements fit.  Missing: n * sizeof(T) of 2^64 bytes or more; refuted below. *)
Theorem C40_reserve_partial w r n y w' v' : machine64 -> reach w -> r < length (view w) -> fits64 tr n -> exec (Reserve r n) w = Ret y w' -> w_regs w' !! r = Some v' -> n <= v_cap v' /\ view w' = view w.
Proof.
  intros Hm HR Hrl Hf E Hv'. pose proof (reach_inv _ Hm HR) as HI. destruct (lookup_lt_is_Some_2 (w_regs w) r) as [v Hr]; [destruct HI as [-> _]; assumption|]. destruct (lookup_lt_is_Some_2 (view w) r Hrl) as [xs Hx].
  assert (W : wp (exec (Reserve r n)) (fun _ h' rg' => exists v1, rg' !! r = Some v1 /\ n <= v_cap v1 /\ Inv h' rg' (view w)) (fun _ _ => True) (w_heap w) (w_regs w)).
  { cbn [Machine.exec]. apply (wp_none tr moved dflt). eapply wp_reserve; [assumption|assumption|exact Hr|eapply Inv_St; eassumption| |auto]. intros v1 h1 HS1 Hc _. exists v1. split; [apply list_lookup_insert; apply lookup_lt_Some in Hr; assumption|]. split; [lia|]. rewrite <- (list_insert_id (view w) r xs Hx). eapply Inv_back; eassumption. }
  apply wp_world in W. rewrite E in W. destruct W as (v1 & H1 & H2 & H3). split; [replace v' with v1 by congruence; assumption|]. apply view_inv. assumption.
Qed.
(** push_backs that return, and how many of them changed capacity() *)
Definition cap_of (w : @world V) (r : nat) : nat := match w_regs w !! r with Some v => v_cap v | None => 0 end.
Definition data_of (w : @world V) (r : nat) : option nat := w_regs w !! r ≫= v_blk.
Fixpoint pushes (r : nat) (zs : list V) (w : @world V) : option (nat * @world V) :=
  match zs with
  | [] => Some (0, w)
  | z :: zs' => match exec (PushBack r (AVal z) false) w with
                | Ret _ w' => p ← pushes r zs' w'; Some ((if cap_of w' r =? cap_of w r then 0 else 1) + p.1, p.2)
                | _ => None
                end
  end.
Lemma push_step w r xs z y w' : machine64 -> reach w -> view w !! r = Some xs -> exec (PushBack r (AVal z) false) w = Ret y w' ->
  reach w' /\ view w' !! r = Some (xs ++ [z]) /\ (length xs < cap_of w r -> cap_of w' r = cap_of w r /\ data_of w' r = data_of w r) /\
  (length xs = cap_of w r -> cap_of w' r = push_back_cap tr (cap_of w r)) /\ length xs <= cap_of w r /\ (N.of_nat (cap_of w r) * t_size tr <= t_max tr)%N.
Proof.
  intros Hm HR Hx E. pose proof (reach_inv _ Hm HR) as HI. assert (Hrl : r < length (view w)) by (apply lookup_lt_Some in Hx; assumption). destruct (lookup_lt_is_Some_2 (w_regs w) r) as [v Hr]; [destruct HI as [-> _]; assumption|].
  pose proof (Inv_St _ _ _ _ _ _ _ HI Hr Hx) as HS. assert (Hp : pre (PushBack r (AVal z) false) (view w)) by (split; [cbn [Machine.spec]; rewrite Hx; cbn; eauto|split; [exact Hrl|cbn; congruence]]).
  split; [eapply reach_ret; eassumption|]. unfold cap_of, data_of. rewrite Hr. cbn [mbind option_bind].
  assert (W : wp (exec (PushBack r (AVal z) false)) (fun _ h' rg' => Inv h' rg' (<[r := xs ++ [z]]> (view w)) /\ exists v', rg' !! r = Some v' /\ (length xs < v_cap v -> v_blk v' = v_blk v /\ v_cap v' = v_cap v) /\ (length xs = v_cap v -> v_cap v' = push_back_cap tr (v_cap v))) (fun _ _ => True) (w_heap w) (w_regs w)).
  { cbn [Machine.exec]. apply (wp_none tr moved dflt), wp_bind. cbn [resolve]. apply wp_ret. eapply wp_push_back; [assumption|exact Hr|exact HS|reflexivity|discriminate| |auto].
    intros v' h' HS' H1 H2. split; [eapply Inv_back; eassumption|]. exists v'. split; [apply list_lookup_insert; apply lookup_lt_Some in Hr; assumption|auto]. }
  apply wp_world in W. rewrite E in W. destruct W as (W1 & v' & Hr' & W2 & W3). rewrite Hr'. cbn [mbind option_bind]. rewrite (view_inv _ _ W1). split; [apply list_lookup_insert; assumption|].
  split; [intros Hlt; destruct (W2 Hlt); auto|]. split; [exact W3|]. split; [rewrite <- (St_sz _ _ _ _ HS); eapply St_le; eassumption|eapply St_cap; eassumption].
Qed.
(** Pushing elements while they fit reallocates nothing: capacity() and data() stay. *)
Theorem C40_push_within_capacity r zs : forall w xs k w', machine64 -> reach w -> view w !! r = Some xs -> length xs + length zs <= cap_of w r -> pushes r zs w = Some (k, w') ->
  k = 0 /\ cap_of w' r = cap_of w r /\ data_of w' r = data_of w r /\ view w' !! r = Some (xs ++ zs).
Proof.
  induction zs as [|z zs IH]; intros w xs k w' Hm HR Hx Hc E; cbn [pushes length] in *; [injection E as <- <-; rewrite app_nil_r; auto|].
  destruct (exec (PushBack r (AVal z) false) w) as [y w1| |] eqn:E1; [|discriminate|discriminate]. destruct (push_step _ _ _ _ _ _ Hm HR Hx E1) as (R1 & X1 & C1 & _). destruct C1 as [C1 D1]; [lia|].
  destruct (pushes r zs w1) as [[k1 w2]|] eqn:E2; [|discriminate]. injection E as <- <-. cbn [fst snd]. destruct (IH w1 (xs ++ [z]) k1 w2 Hm R1 X1) as (H1 & H2 & H3 & H4); [rewrite app_length, C1; cbn [length]; lia|assumption|].
  rewrite C1, Nat.eqb_refl. split; [lia|]. split; [congruence|]. split; [congruence|]. rewrite H4, <- app_assoc. reflexivity.
Qed.
Lemma push_back_cap_le c : (t_size tr <> 0)%N -> push_back_cap tr c <= 2 * c + 64.
Proof.
  intros Hs. unfold push_back_cap. assert (B : forall x, (wmod 64 x <= x)%N) by (intros x; unfold wmod; apply N.mod_le; discriminate).
  assert (64 / t_size tr <= 64)%N by (apply N.div_le_upper_bound; lia). destruct (N.eqb_spec (N.of_nat c) 0); [lia|].
  assert (D : (wmul 64 (N.of_nat c) 2 <= 2 * N.of_nat c)%N) by (unfold wmul; etransitivity; [apply B|lia]). destruct (N.of_nat c <? _)%N; [lia|]. destruct (_ <? N.of_nat c)%N; [lia|].
  assert (D3 : (wadd 64 (wmul 64 (N.of_nat c) 3) 1 <= 3 * N.of_nat c + 1)%N) by (unfold wadd; etransitivity; [apply B|]; unfold wmul; pose proof (B (N.of_nat c * 3)%N); lia).
  assert (wadd 64 (wmul 64 (N.of_nat c) 3) 1 / 2 <= (3 * N.of_nat c + 1) / 2)%N by (apply N.div_le_mono; lia). assert ((3 * N.of_nat c + 1) / 2 <= 2 * N.of_nat c)%N by (apply N.div_le_upper_bound; lia). lia.
Qed.
(** Growth is geometric: each reallocation multiplies the capacity by 3/2 at least, so the number of reallocations is logarithmic in the number of elements. *)
Theorem C40_geometric_growth r zs : forall w xs k w', machine64 -> reach w -> view w !! r = Some xs -> pushes r zs w = Some (k, w') ->
  view w' !! r = Some (xs ++ zs) /\
  (0 < cap_of w r -> 3 ^ k * cap_of w r <= 2 ^ k * cap_of w' r) /\
  (0 < k -> 3 ^ (k - 1) <= 2 ^ (k - 1) * cap_of w' r /\ cap_of w' r <= 2 * (length xs + length zs) + 64).
Proof.
  induction zs as [|z zs IH]; intros w xs k w' Hm HR Hx E; cbn [pushes length] in *.
  { injection E as <- <-. rewrite app_nil_r. split; [assumption|]. split; [cbn; lia|lia]. }
  destruct (exec (PushBack r (AVal z) false) w) as [y w1| |] eqn:E1; [|discriminate|discriminate]. destruct (push_step _ _ _ _ _ _ Hm HR Hx E1) as (R1 & X1 & C1 & G1 & Hle & Hmx).
  destruct (pushes r zs w1) as [[k1 w2]|] eqn:E2; [|discriminate]. injection E as <- <-. cbn [fst snd]. destruct (IH w1 (xs ++ [z]) k1 w2 Hm R1 X1 E2) as (H1 & H2 & H3). rewrite <- app_assoc in H1. split; [exact H1|]. clear H1 IH X1.
  rewrite app_length in H3. cbn [length] in H3.
  destruct (push_back_cap_ok tr (cap_of w r) Hm Hmx) as (_ & P1 & P2).
  destruct (decide (length xs < cap_of w r)) as [Hlt|Hge].
  - destruct (C1 Hlt) as [C2 _]. rewrite C2, Nat.eqb_refl in *. cbn [Nat.add]. split; [exact H2|]. intros Hk. destruct (H3 Hk). split; [assumption|lia].
  - assert (Heq : length xs = cap_of w r) by lia. specialize (G1 Heq). assert (Hne : cap_of w1 r <> cap_of w r) by lia. apply Nat.eqb_neq in Hne. rewrite Hne. cbn [Nat.add]. assert (Hpos : 0 < cap_of w1 r) by lia. specialize (H2 Hpos).
    split.
    + intros Hc0. cbn [Nat.pow]. assert (3 * cap_of w r <= 2 * cap_of w1 r) by (rewrite G1; apply P2; lia). assert (3 ^ k1 * (3 * cap_of w r) <= 3 ^ k1 * (2 * cap_of w1 r)) by (apply Nat.mul_le_mono_l; assumption). nia.
    + intros _. replace (S k1 - 1) with k1 by lia. split; [nia|]. destruct (decide (0 < k1)) as [Hk|Hk]; [specialize (H3 Hk); lia|]. assert (k1 = 0) as -> by lia.
      assert (Hsame : cap_of w2 r = cap_of w1 r).
      { assert (Hw1 : exists xs1, view w1 !! r = Some xs1) by (destruct (push_step _ _ _ _ _ _ Hm HR Hx E1) as (_ & X & _); eauto). clear -E2 Hm R1 Hw1. destruct Hw1 as [xs1 X1]. revert w1 xs1 R1 X1 E2. induction zs as [|z zs IH]; intros w1 xs1 R1 X1 E2; cbn [pushes] in E2; [congruence|].
        destruct (exec (PushBack r (AVal z) false) w1) as [y w3| |] eqn:E3; [|discriminate|discriminate]. destruct (pushes r zs w3) as [[k3 w4]|] eqn:E4; [|discriminate]. injection E2 as E2 <-. cbn [fst snd] in *.
        destruct (push_step _ _ _ _ _ _ Hm R1 X1 E3) as (R3 & X3 & _). destruct (Nat.eqb_spec (cap_of w3 r) (cap_of w1 r)) as [Ec|Ec]; [|lia]. cbn [Nat.add] in E2. subst k3. rewrite <- Ec. eapply IH; eassumption. }
      rewrite Hsame, G1. pose proof (push_back_cap_le (cap_of w r)). destruct Hm as [[Hs _] _]. lia.
Qed.
End Props.
Print Assumptions C37_sequence. Print Assumptions C37_program. Print Assumptions C37_size_capacity.
Print Assumptions C38_lifetimes. Print Assumptions C38_no_leak. Print Assumptions C38_exceptions. Print Assumptions C38_all_freed.
Print Assumptions C39_own_element. Print Assumptions C39_emplace_partial. Print Assumptions C40_reserve_partial. Print Assumptions C40_push_within_capacity. Print Assumptions C40_geometric_growth.
