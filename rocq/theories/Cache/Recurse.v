(** mt_memoize_lru (include/gtl/memoize.hpp:177-256) of a function that calls itself through the cache: the calls
    inside run after prepare_insert has chosen a slot for the call outside and before the element is constructed
    there (lazy_emplace_l, phmap.hpp:3943-3958; lazy_emplace_at, 2197-2201). *)
From stdpp Require Import list.
From Coq Require Import Arith NArith ZArith Lia ZifyBool ZifyNat.
From Verif.Common Require Import Res Word.
From Verif.Swiss Require Import Group GroupSpec Model Probe Inv TableInv Resize Ops MapSpec History Multi MultiSpec MultiProof.
From Verif.Par Require Import Seq Conc ConcMap.
From Verif.Cache Require Import Lru Memo.
From Verif.Swiss Require Import FailingProof.
Local Open Scope nat_scope.
Local Open Scope res_scope.

Section Recurse.
Context {K V : Type} (hash : K -> N) (eqb : K -> K -> bool) (E : env).
Notation shard := (@shard K V).
Notation table := (table K nid).
(* _f(args...): the questions go through the cache *)
Fixpoint run_body (call : shard -> K -> res (shard * V)) (s : shard) (b : body K V) : res (shard * V) :=
  match b with BRet v => Ok (s, v) | BAsk k c => let* (s', v) := call s k in run_body call s' (c v) end.
(* ctor(key, l.begin()): placement new; an element that is in the slot already is overwritten *)
Definition place (p : nat) (e : K * nid) (t : table) : res table :=
  let* sl := store (t_slots t) p (Some e) in Ok (mkTable (t_ctrl t) sl (t_size t) (t_cap t) (t_growth t)).
(** operator() (219-245) for one submap (N = 0) and NullMutex.  [slots_ + idx] is computed before the lambda runs
    (2199): when a call inside has made the submap grow, it points into memory that was given back.  The depth n of
    the recursion is bounded by the caller. *)
Fixpoint rec_call (def : K -> body K V) (max : nat) (n : nat) (s : shard) (k : K) {struct n} : res (shard * V) :=
  match n with
  | O => Loop
  | S n' =>
      let* r := find_key hash eqb E (s_tab s) k in
      match r with
      | Some p =>
          let* kv := deref (s_tab s) p in
          let* e := node_at (s_list s) (snd kv) in
          let* l := splice_front (s_list s) (snd kv) in
          Ok (with_list s l, snd e)
      | None =>
          let* (t1, p) := prepare_insert hash E (s_tab s) (hash k) in             (* find_or_prepare_insert (4397-4409) *)
          let* (s2, v) := run_body (rec_call def max n') (with_tab t1 s) (def k) in   (* res = _f(args...) (231) *)
          let i : nid := (s_own s2, s_next s2) in
          let l1 := (i, (k, v)) :: s_list s2 in                                   (* l.push_front (232) *)
          if negb (t_cap (s_tab s2) =? t_cap t1) then UB                          (* ctor writes to memory given back *)
          else
            let* t2 := place p (k, i) (s_tab s2) in                               (* ctor(key, l.begin()) (233) *)
            let* (del, l2) := (if max <=? length l1 then let* (dk, l') := pop_back l1 in Ok (Some dk, l') else Ok (None, l1)) in
            let* t3 := publish_at E p (hash k) t2 in                              (* set_ctrl (3955) *)
            let* t4 := (match del with None => Ok t3 | Some dk => let* (_, t') := erase_key hash eqb E t3 dk in Ok t' end) in
            Ok (mkShard t4 l2 (s_own s2) (S (s_next s2)), v)
      end
  end.

(** ** Deep recursion *)
Context (HE : env_ok E) (HK : KeyOK hash eqb).
Set Default Proof Using "HE HK".
Notation W := (g_width (e_group E)).
Notation CTG t := (CapacityToGrowth W (t_cap t)).
Notation pinv := (pinv hash eqb E).
Notation exact := (exact E).
Lemma empty_absent (t : table) k : elems (t_slots t) = [] -> absent eqb t k.
Proof using. intros H e He. rewrite H in He. destruct He. Qed.
(** while there is room, a new key just takes its share *)
Lemma prepare_room (t : table) k : pinv t -> exact t -> elems (t_slots t) = [] -> (0 < t_growth t)%N ->
  exists t1 p, prepare_insert hash E t (hash k) = Ok (t1, p) /\ pinv t1 /\ exact t1 /\ elems (t_slots t1) = [] /\
    t_cap t1 = t_cap t /\ N.to_nat (t_growth t1) = N.to_nat (t_growth t) - 1.
Proof.
  intros Hp Hx He Hg. pose proof (pinv_tinv0 hash eqb E t Hp) as H0. pose proof (p_gr _ _ _ _ Hp) as Hgr. pose proof (cap_le_growth E (t_cap t)) as Hcg.
  rewrite He in Hgr. cbn in Hgr.
  destruct (ffnf_reach hash eqb E (eo_group E HE) HK t (hash k) H0) as (p & Hpp & Hpc & (c & Hc & Hcn) & _); [rewrite He; cbn; lia|].
  unfold prepare_insert. rewrite Hpp. cbn [rbind]. rewrite (load_some _ _ _ Hc). cbn [rbind].
  rewrite (proj2 (N.eqb_neq _ _)) by lia. cbn [andb rbind]. rewrite (load_some _ _ _ Hc). cbn [rbind].
  assert (Hc0 : (c < 0)%Z) by lia.
  destruct (pfail hash eqb E HE HK t p c Hp Hc (or_introl Hg) (conj Hpc Hc0)) as [Hpf Hxf]. specialize (Hxf Hx).
  eexists _, _. split; [reflexivity|]. fold (wth t (S (t_size t)) (wsub 64 (t_growth t) (if IsEmpty c then 1%N else 0%N))).
  split; [exact Hpf|]. split; [exact Hxf|]. split; [exact He|]. split; [reflexivity|].
  destruct Hxf as [_ Hs]. destruct Hx as [_ Hs0]. cbn [wth t_size t_growth t_cap] in *. lia.
Qed.
(** and when there is none, the submap grows *)
Lemma prepare_grows (t : table) k : pinv t -> exact t -> elems (t_slots t) = [] -> t_growth t = 0%N ->
  (alloc_size E (2 * N.of_nat (t_cap t) + 1) <= e_max_bytes E)%N ->
  exists t1 p c, prepare_insert hash E t (hash k) = Ok (wth t1 (S (t_size t1)) (wsub 64 (t_growth t1) (if IsEmpty c then 1%N else 0%N)), p) /\
    pinv t1 /\ exact t1 /\ elems (t_slots t1) = [] /\ t_cap t1 = 2 * t_cap t + 1 /\
    find_first_non_full E (t_ctrl t1) (t_cap t1) (hash k) = Ok p /\ t_ctrl t1 !! p = Some c /\ (0 < t_growth t1)%N /\ p < t_cap t1 /\ (c < 0)%Z.
Proof.
  intros Hp Hx He Hg Ha. pose proof (pinv_cap hash eqb E t Hp) as Hv. destruct (growth_facts E HE _ Hv) as (Hg1 & Hgs & Hgl & Hgd).
  assert (Hgrow : exists u, rehash_and_grow_if_necessary hash E t = Ok u /\ t_cap u = 2 * t_cap t + 1).
  { destruct Hx as [_ Hx]. rewrite Hg in Hx. cbn in Hx. unfold rehash_and_grow_if_necessary.
    destruct (Nat.eqb_spec (t_cap t) 0) as [Hc0|Hc0]; [pose proof (valid_cap_cases _ Hv); lia|].
    destruct (Nat.leb_spec (t_size t) (CTG t / 2)) as [Hhalf|Hhalf].
    { exfalso. pose proof (Nat.div_lt (CTG t) 2 ltac:(lia) ltac:(lia)). lia. }
    pose proof (tv_bytes _ _ _ _ (p_core _ _ _ _ Hp)) as Hby. cbn [core wth t_cap] in Hby.
    destruct (no_wrap_double E HE (t_cap t) Hby ltac:(lia)) as [Hnw Hwa]. rewrite Hwa.
    assert (Hto : N.to_nat (2 * N.of_nat (t_cap t) + 1) = 2 * t_cap t + 1) by lia.
    destruct (resize_ok hash eqb E HE HK t (2 * N.of_nat (t_cap t) + 1)) as [[_ Hb]|(u & Hr & _ & _ & _ & Hcu & _)].
    - right. apply (pinv_tinv0 hash eqb E). assumption.
    - rewrite Hto. apply valid_cap_double; [assumption|]. pose proof (eo_max _ HE). unfold needed_bytes in Hby. lia.
    - assumption.
    - rewrite He. cbn. lia.
    - lia.
    - exists u. split; [assumption|]. lia. }
  destruct Hgrow as (u & Hu & Hcu).
  destruct (pgrow hash eqb E HE HK t (or_intror Hp) Hg) as [Hb|(t1 & Hr & Hp1 & Hd1 & Hs1 & Hpm & Hgr & Hx1)].
  { apply (xgood_size E). right. assumption. }
  { congruence. }
  rewrite Hu in Hr. injection Hr as <-.
  assert (He1 : elems (t_slots u) = []) by (rewrite He in Hpm; apply Permutation_nil; symmetry; exact Hpm).
  pose proof (pinv_tinv0 hash eqb E t Hp) as H0. pose proof (pinv_tinv0 hash eqb E u Hp1) as H01.
  destruct (ffnf_reach hash eqb E (eo_group E HE) HK u (hash k) H01) as (p & Hpp & Hpc & (c & Hc & Hcn) & _); [rewrite He1; cbn; lia|].
  destruct (ffnf_reach hash eqb E (eo_group E HE) HK t (hash k) H0) as (p0 & Hpp0 & Hpc0 & (c0 & Hc0 & Hcn0) & _).
  { rewrite He. cbn. pose proof (valid_cap_cases _ Hv). lia. }
  exists u, p, c. split; [|split; [assumption|split; [assumption|split; [assumption|split; [assumption|split; [assumption|split; [assumption|split; [assumption|split; [assumption|lia]]]]]]]]].
  unfold prepare_insert. rewrite Hpp0. cbn [rbind]. rewrite (load_some _ _ _ Hc0). cbn [rbind]. rewrite Hg.
  assert (Hde : IsDeleted c0 = false).
  { destruct (IsDeleted c0) eqn:Hd; [exfalso|reflexivity].
    eapply (nodel_empty hash eqb E t p0 c0 Hp); [apply Hx|assumption|assumption|lia|]. unfold IsDeleted, IsEmpty, kDeleted, kEmpty in *. lia. }
  rewrite Hde. cbn [N.eqb andb negb]. rewrite Hu. cbn [rbind]. rewrite Hpp. cbn [rbind]. rewrite (load_some _ _ _ Hc). cbn [rbind]. reflexivity.
Qed.

Lemma finish_split (t : table) p k (i : nid) t' : finish_insert hash E t p (k, i) = Ok t' ->
  exists t2, place p (k, i) t = Ok t2 /\ publish_at E p (hash k) t2 = Ok t' /\ t_cap t' = t_cap t.
Proof using.
  unfold finish_insert, construct, place, publish_at, load. intros H. destruct (t_slots t !! p) as [[|]|]; cbn [of_option rbind] in H; try discriminate.
  destruct (store (t_slots t) p (Some (k, i))) as [sl| | | |]; cbn [rbind] in *; try discriminate.
  destruct (set_ctrl E (t_ctrl t) (t_cap t) p (H2 (hash (fst (k, i))))) as [ct| | | |] eqn:Hs; cbn [rbind] in H; try discriminate. injection H as <-.
  eexists. split; [reflexivity|]. cbn [t_ctrl t_cap t_slots t_size t_growth fst] in *. rewrite Hs. split; reflexivity.
Qed.
(** the innermost call: the submap grows *)
Lemma inner_call def max n (s : shard) k v : 1 < max -> def k = BRet v ->
  pinv (s_tab s) -> exact (s_tab s) -> elems (t_slots (s_tab s)) = [] -> t_growth (s_tab s) = 0%N -> s_list s = [] ->
  (alloc_size E (2 * N.of_nat (t_cap (s_tab s)) + 1) <= e_max_bytes E)%N ->
  exists s', rec_call def max (S n) s k = Ok (s', v) /\ t_cap (s_tab s') = 2 * t_cap (s_tab s) + 1.
Proof.
  intros Hmax Hdef Hp Hx He Hg Hl Ha. cbn [rec_call].
  rewrite (pfind_absent hash eqb E HE HK _ k (or_intror Hp) (empty_absent _ _ He)). cbn [rbind].
  destruct (prepare_grows (s_tab s) k Hp Hx He Hg Ha) as (t1 & p & c & Hpr & Hp1 & Hx1 & He1 & Hc1 & Hff & Hc & Hgr & Hpc & Hcn).
  rewrite Hpr. cbn [rbind]. rewrite Hdef. cbn [run_body rbind with_tab s_tab s_own s_next s_list]. rewrite Nat.eqb_refl. cbn [negb]. rewrite Hl.
  set (i := (s_own s, s_next s)).
  destruct (pfinish hash eqb E HE HK t1 k i p c Hp1 (empty_absent _ _ He1)) as (t' & Hfin & _); [rewrite He1; cbn; lia|assumption|assumption|auto|auto|].
  destruct (finish_split _ _ _ _ _ Hfin) as (t2 & Hpl & Hpu & Hcap). fold i in Hpl |- *. rewrite Hpl. cbn [rbind length].
  rewrite (proj2 (Nat.leb_gt max 1)) by lia. cbn [rbind]. rewrite Hpu. cbn [rbind]. eexists. split; [reflexivity|]. cbn [s_tab]. rewrite Hcap. exact Hc1.
Qed.
(** the calls around it write to memory given back *)
Lemma outer_calls def max (ks : nat -> K) (w : nat -> V -> V) v cap : 1 < max -> def (ks 0) = BRet v ->
  (alloc_size E (2 * N.of_nat cap + 1) <= e_max_bytes E)%N ->
  forall n, (forall m, m < n -> def (ks (S m)) = BAsk (ks m) (fun v => BRet (w m v))) -> forall s : shard,
  pinv (s_tab s) -> exact (s_tab s) -> elems (t_slots (s_tab s)) = [] -> N.to_nat (t_growth (s_tab s)) = n -> s_list s = [] -> t_cap (s_tab s) = cap ->
  (exists s' v', rec_call def max (S n) s (ks n) = Ok (s', v') /\ t_cap (s_tab s') <> cap /\ n = 0) \/ rec_call def max (S n) s (ks n) = UB.
Proof.
  intros Hmax Hdef Ha. induction n as [|n IH]; intros Hn s Hp Hx He Hg Hl Hcap.
  - left. destruct (inner_call def max 0 s (ks 0) v Hmax Hdef Hp Hx He ltac:(lia) Hl ltac:(rewrite Hcap; exact Ha)) as (s' & Hs & Hc).
    exists s', v. split; [assumption|]. split; [lia|reflexivity].
  - right. remember (S n) as n1 eqn:Hn1. cbn [rec_call]. subst n1.
    rewrite (pfind_absent hash eqb E HE HK _ (ks (S n)) (or_intror Hp) (empty_absent _ _ He)). cbn [rbind].
    destruct (prepare_room (s_tab s) (ks (S n)) Hp Hx He ltac:(lia)) as (t1 & p & Hpr & Hp1 & Hx1 & He1 & Hc1 & Hg1).
    rewrite Hpr. cbn [rbind]. rewrite (Hn n ltac:(lia)). unfold run_body.
    destruct (IH (fun m Hm => Hn m ltac:(lia)) (with_tab t1 s) Hp1 Hx1 He1 ltac:(cbn [with_tab s_tab]; lia) Hl ltac:(cbn [with_tab s_tab]; lia)) as [(s' & v' & Hs & Hne & _)|Hub].
    + rewrite Hs. cbn [rbind]. rewrite (proj2 (Nat.eqb_neq _ _)) by lia. reflexivity.
    + rewrite Hub. reflexivity.
Qed.
End Recurse.

(** ** With a mutex: mt_memoize_lru, as commands of a thread (Par/Conc) on the submaps *)
Section Mutex.
Context {K V : Type} (hash : K -> N) (eqb : K -> K -> bool) (E : env) (lg : nat).
Notation shard := (@shard K V).
Notation cmd := (cmd shard (option V)).
Definition with_res {A} (r : res A) (k : A -> cmd) : cmd := match r with Ok a => k a | BadAlloc => CDone None | _ => CFail end.
(* operator() (219-245) up to and including the call of _f, and the rest of it in one write; calls that find the key in the
   cache are simplified: the list is not reordered; nor is the oldest entry removed when the cache is full *)
Fixpoint mt_body (call : K -> (V -> cmd) -> cmd) (b : body K V) (cont : V -> cmd) : cmd :=
  match b with BRet v => cont v | BAsk k c => call k (fun v => mt_body call (c v) cont) end.
Fixpoint mt_call (def : K -> body K V) (n : nat) (k : K) (cont : V -> cmd) {struct n} : cmd :=
  match n with
  | O => CFail
  | S n' =>
      let m := subidx lg (hash k) in
      CLock m Excl (CRead m (fun s => with_res (find_key hash eqb E (s_tab s) k) (fun r =>
        match r with
        | Some p => with_res (let* kv := deref (s_tab s) p in node_at (s_list s) (snd kv)) (fun e => CUnlock m Excl (cont (snd e)))
        | None =>
            CWrite m (fun s => match prepare_insert hash E (s_tab s) (hash k) with Ok (t, _) => with_tab t s | _ => s end)
                     (fun s => with_res (prepare_insert hash E (s_tab s) (hash k)) (fun tp =>
                       mt_body (mt_call def n') (def k) (fun v =>
                       let put s := let i := (s_own s, s_next s) in
                         let* t1 := place (snd tp) (k, i) (s_tab s) in
                         let* t2 := publish_at E (snd tp) (hash k) t1 in
                         Ok (mkShard t2 ((i, (k, v)) :: s_list s) (s_own s) (S (s_next s))) in
                       CWrite m (fun s => match put s with Ok s' => s' | _ => s end)
                                (fun s => with_res (put s) (fun _ => CUnlock m Excl (cont v))))))
        end)))
  end.
End Mutex.
